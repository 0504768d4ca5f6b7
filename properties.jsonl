{"id": "C01", "title": "Integrator task graphs are closed and acyclic", "statement": "For every combination of compile-time and run-time options that selects tasks, the task list assembled by the time integrator contains every task that another task waits for, contains no task twice, fits the dependency bit field, and its tasks can be ordered so that each comes after everything it depends on.", "quantifier": "all combinations of the option flags (super-time-stepping, MHD, passive scalars, multilevel mesh, adaptive mesh, shearing box, orbital advection, explicit radiation, cosmic rays, STS integrator kind)", "why_tests_cant": "Each regression test builds one configuration; a missing dependency in an untested combination deadlocks only that build.", "anchors": ["src/task_list/time_integrator.cpp: TimeIntegratorTaskList::TimeIntegratorTaskList, AddTask", "src/task_list/task_id.cpp: TaskID"]}
{"id": "C02", "title": "Every task of a stage runs exactly once and only after its dependencies", "statement": "While a stage is executed on a MeshBlock, whatever the pattern in which individual tasks report that they must be retried, no task completes twice, no task is started before all its dependencies have completed, and when the list reports 'complete' every task has completed exactly once.", "quantifier": "all task lists with distinct single-bit ids, all sequences of task outcomes (fail/next/success), all numbers of scheduler calls", "why_tests_cant": "Retry patterns come from MPI message timing; a test sees only a few interleavings.", "anchors": ["src/task_list/task_list.cpp: TaskList::DoAllAvailableTasks", "src/task_list/task_id.cpp: IsUnfinished, CheckDependencies, SetFinished", "src/task_list/task_list.hpp: TaskStates"]}
{"id": "C03", "title": "A stage always finishes when messages eventually arrive", "statement": "If every task that is tried infinitely often eventually succeeds, executing a stage on all MeshBlocks of a rank terminates with every block complete; it can neither deadlock nor loop forever.", "quantifier": "all acyclic closed task lists, all numbers of blocks, all fair outcome schedules", "why_tests_cant": "Liveness over unbounded schedules cannot be tested.", "anchors": ["src/task_list/task_list.cpp: TaskList::DoTaskListOneStage, DoAllAvailableTasks"]}
{"id": "C04", "title": "Boundary communication is closed only after all communication tasks are done", "statement": "In every configuration and every schedule, the task that clears the boundary communication state runs only after every send and every receive task of that stage has completed on that block.", "quantifier": "all option combinations and all task-outcome schedules", "why_tests_cant": "The send tasks are not all ancestors of the clearing task: the guarantee comes from scan order, i.e. from every possible interleaving.", "anchors": ["src/task_list/time_integrator.cpp: TimeIntegratorTaskList (CLEAR_ALLBND)", "src/task_list/task_list.cpp: DoAllAvailableTasks"]}
{"id": "C05", "title": "Time integrators are consistent and of their documented order", "statement": "For each integrator (vl2, rk1, rk2, rk3, rk4, ssprk5_4), one full step applied to a state whose right-hand side vanishes returns the same state, applied to a constant right-hand side advances by exactly dt times it, and applied to a linear right-hand side multiplies the state by the Taylor polynomial of exp of the documented order (exactly for vl2/rk1/rk2/rk3, to the accuracy of the published decimal coefficients for rk4/ssprk5_4).", "quantifier": "all states, all right-hand sides, all time steps", "why_tests_cant": "Convergence tests measure slopes on a few problems and tolerate coefficient errors.", "anchors": ["src/task_list/time_integrator.cpp: stage_wghts, IntegrateHydro", "src/mesh/weighted_ave.cpp: WeightedAve"]}
{"id": "C06", "title": "The time attached to each stage is the time of the stage solution", "statement": "At each stage the start-of-stage and end-of-stage times handed to source terms and boundary functions equal the time abscissa of the solution register being used (the value obtained by integrating du/dt=1 from 0 with the same weights).", "quantifier": "all integrators without orbital advection, all stages", "why_tests_cant": "Only time-dependent sources with high order integrators would reveal it; no regression problem combines them.", "anchors": ["src/task_list/time_integrator.cpp: stage_wghts[].sbeta/ebeta", "src/task_list/time_integrator.cpp: AddSourceTerms, PhysicalBoundary"]}
{"id": "C07", "title": "The root grid tiles the domain", "statement": "After the root grid is created every root block position inside the nrbx1 x nrbx2 x nrbx3 grid is covered by exactly one leaf block at the root level, and no leaf lies outside.", "quantifier": "all root grid sizes and dimensionalities", "why_tests_cant": "The set of grid sizes is infinite; sizes that are not powers of two exercise different branches at every level.", "anchors": ["src/mesh/meshblock_tree.cpp: MeshBlockTree::CreateRootGrid", "src/mesh/mesh.cpp: Mesh::Mesh root_level"]}
{"id": "C08", "title": "Every refinement history keeps the mesh a tiling", "statement": "Starting from the root grid, after any sequence of static refinements, AMR refinements and derefinements, every point of the domain (every fine enough cell position) is contained in exactly one MeshBlock.", "quantifier": "all sequences of refine/derefine requests, all depths, all dimensions and boundary settings", "why_tests_cant": "The space of refinement histories is unbounded.", "anchors": ["src/mesh/meshblock_tree.cpp: AddMeshBlock, Refine, Derefine", "src/mesh/amr_loadbalance.cpp: Mesh::UpdateMeshBlockTree"]}
{"id": "C09", "title": "Neighbouring MeshBlocks differ by at most one level", "statement": "After any sequence of refinement and derefinement requests, MeshBlocks touching in a face, edge or corner (including across periodic boundaries) differ by at most one refinement level.", "quantifier": "all refine/derefine histories, dimensions, periodic settings", "why_tests_cant": "2:1 balance is a global invariant of an unbounded history; one missed neighbour direction only matters for particular shapes.", "anchors": ["src/mesh/meshblock_tree.cpp: Refine, Derefine, AddMeshBlock"]}
{"id": "C10", "title": "Polar boundaries keep the refinement balanced", "statement": "Refining a block that touches a polar boundary refines its neighbours across the pole and its ordinary neighbours so that touching blocks still differ by at most one level.", "quantifier": "all refinement histories on meshes with polar boundaries", "why_tests_cant": "Polar AMR runs are not in the regression suite; the failure needs particular azimuthal block positions.", "anchors": ["src/mesh/meshblock_tree.cpp: Refine (polar branch)"]}
{"id": "C11", "title": "A refinement request is honoured and never coarsens", "statement": "After a block is requested at a logical location inside the domain, the location is a node of the tree and its position is resolved at least at the requested level, and no position that was resolved at some level becomes coarser.", "quantifier": "all trees, all in-domain requests", "why_tests_cant": "Refinement recursion visits neighbours recursively to unbounded depth.", "anchors": ["src/mesh/meshblock_tree.cpp: AddMeshBlock, Refine"]}
{"id": "C12", "title": "Derefinement merges only complete sibling groups and keeps balance", "statement": "Derefining a parent either leaves the tree unchanged or replaces exactly its 2^dim leaf children by the parent, removing 2^dim-1 blocks, and the balance between neighbouring blocks is preserved.", "quantifier": "all balanced trees and all derefinement requests", "why_tests_cant": "The guard against derefining next to finer blocks must hold for every neighbourhood.", "anchors": ["src/mesh/meshblock_tree.cpp: Derefine", "src/mesh/amr_loadbalance.cpp: UpdateMeshBlockTree"]}
{"id": "C13", "title": "Global ids number the blocks consecutively in a fixed order", "statement": "The block list produced from the tree contains every leaf exactly once, block ids are 0..nbtotal-1 in that order, the i-th list entry is the location of the block with id i, the count equals the number returned by the block counter, and siblings are contiguous.", "quantifier": "all trees", "why_tests_cant": "Holds for every tree shape.", "anchors": ["src/mesh/meshblock_tree.cpp: CountMeshBlock, GetMeshBlockList"]}
{"id": "C14", "title": "A restart rebuilds the same tree", "statement": "Rebuilding the tree by inserting, in file order, the locations of all blocks of a mesh yields a tree with the same blocks and the same ids.", "quantifier": "all refinement histories before the restart", "why_tests_cant": "Unbounded set of mesh histories.", "anchors": ["src/mesh/meshblock_tree.cpp: AddMeshBlockWithoutRefine", "src/mesh/mesh.cpp: Mesh::Mesh (restart)"]}
{"id": "C15", "title": "Neighbour lookup returns the touching block", "statement": "For a leaf block and any direction, neighbour lookup returns nothing exactly when the direction leaves the domain through a non-periodic boundary, and otherwise the node of the same size at the (periodically wrapped) neighbouring position, or the coarser leaf containing that position.", "quantifier": "all balanced trees, all leaves, all 26 directions, all periodic/non-periodic boundary combinations", "why_tests_cant": "Depends on arbitrary tree shapes and wrap-around arithmetic.", "anchors": ["src/mesh/meshblock_tree.cpp: FindNeighbor", "src/bvals/bvals_base.cpp: SearchAndSetNeighbors"]}
{"id": "C16", "title": "Neighbour relations are reciprocal: every boundary send has a matching receive", "statement": "If block A lists block B as a neighbour in some direction using B's buffer slot t, then B lists A as a neighbour and its slot for A is t; hence every message sent in boundary communication is received into the intended slot and no receive waits for a message nobody sends.", "quantifier": "all balanced meshes, all pairs of neighbouring blocks at equal or different level, 1D/2D/3D", "why_tests_cant": "A missing reciprocal entry hangs the run only for special refinement patterns.", "anchors": ["src/bvals/bvals_base.cpp: SearchAndSetNeighbors, FindBufferID, CreateBufferID, BufferID"]}
{"id": "C17", "title": "Refinement flags respect the level limits and derefinement delay", "statement": "The per-block refinement decision never asks to refine a block at the maximum level, never asks to derefine a block at the root level or one with a finer neighbour, and asks to derefine only after the user criterion requested it in the configured number of consecutive checks.", "quantifier": "all sequences of user refinement criteria results and neighbour levels", "why_tests_cant": "History-dependent counter.", "anchors": ["src/mesh/mesh_refinement.cpp: CheckRefinementCondition"]}
{"id": "C18", "title": "AMR remapping between old and new block ids is consistent", "statement": "After the tree is updated, the map from new to old ids sends each new block to the old block that covers it (itself, its parent or its first child), the map from old to new is its inverse on unchanged blocks, is monotone, and maps each old block to a new block that overlaps it.", "quantifier": "all AMR steps on all meshes", "why_tests_cant": "Depends on arbitrary combinations of refined and derefined blocks in one step.", "anchors": ["src/mesh/amr_loadbalance.cpp: RedistributeAndRefineMeshBlocks (newtoold/oldtonew)"]}
{"id": "C19", "title": "One AMR step changes a region by at most one level and only by request", "statement": "In one mesh-update step no block is created more than one level finer or coarser than the block it replaces, and a sibling group is merged only if all of its members asked for it.", "quantifier": "all sets of refinement flags on all balanced meshes", "why_tests_cant": "Arbitrary flag combinations and propagation of refinement to neighbours.", "anchors": ["src/mesh/amr_loadbalance.cpp: UpdateMeshBlockTree"]}
{"id": "C20", "title": "Load balancing assigns every block to exactly one rank contiguously", "statement": "For any cost list with at least as many blocks as ranks, every block is assigned to a rank, ranks own consecutive id ranges in increasing order, every rank owns at least one block, and the start/count tables describe exactly this partition.", "quantifier": "all cost lists (including zero and rounded floating point costs), all rank counts", "why_tests_cant": "Floating point accumulation order and arbitrary costs; a rank with zero blocks crashes later.", "anchors": ["src/mesh/amr_loadbalance.cpp: CalculateLoadBalance"]}
{"id": "C21", "title": "Load balancing bounds the load of each rank", "statement": "With non-negative costs, every rank other than the first receives less than the running average target plus one block's cost; with equal costs on all blocks the block counts of any two ranks differ by at most one.", "quantifier": "all cost lists and rank counts", "why_tests_cant": "Optimality bound over all inputs.", "anchors": ["src/mesh/amr_loadbalance.cpp: CalculateLoadBalance"]}
{"id": "C22", "title": "AMR messages between two ranks have distinct tags", "statement": "Any two different block transfers posted in one redistribution step between the same pair of ranks carry different MPI tags, and face-field correction messages never share a tag with block transfers.", "quantifier": "all redistribution steps, all block numbers within the tag range", "why_tests_cant": "Collisions appear only for particular local id combinations.", "anchors": ["src/mesh/amr_loadbalance.cpp: CreateAMRMPITag, CreateFaceFieldCorrectionMPITag, RedistributeAndRefineMeshBlocks"]}
{"id": "C23", "title": "Boundary messages have distinct tags", "statement": "Boundary-communication tags are injective in (destination local id, buffer slot, physics id) as long as the buffer slot is below 64 and the physics id below 32, and the buffer slots and physics ids the code generates satisfy these bounds; tags fit in the guaranteed MPI range only up to a stated number of blocks per rank.", "quantifier": "all local ids, slots and physics ids", "why_tests_cant": "Bit-field overlap needs extreme values.", "anchors": ["src/bvals/bvals_base.cpp: CreateBvalsMPITag", "src/mesh/mesh.cpp: ReserveTagPhysIDs, ReserveMeshBlockPhysIDs"]}
{"id": "C24", "title": "Buffer slots enumerate the neighbour directions without collision", "statement": "For each dimensionality and refinement mode the table of buffer slots lists every direction/sub-position exactly once, has at most 56 entries, and looking up an entry returns its own slot.", "quantifier": "1D/2D/3D, uniform or multilevel", "why_tests_cant": "Table and lookup are generated by different loops.", "anchors": ["src/bvals/bvals_base.cpp: BufferID, FindBufferID, CreateBufferID"]}
{"id": "C25", "title": "Packing then unpacking a region is the identity on it and touches nothing else", "statement": "Unpacking a buffer that was filled by packing the same index ranges restores exactly the packed values, leaves all other array elements unchanged, consumes exactly the number of elements written, and the number equals the product of the range extents.", "quantifier": "all arrays, all index ranges (including empty), all offsets", "why_tests_cant": "Unbounded sizes.", "anchors": ["src/utils/buffer_utils.cpp: PackData, UnpackData"]}
{"id": "C26", "title": "AMR transfer buffers have the size that is packed and unpacked", "statement": "For same-level, fine-to-coarse and coarse-to-fine transfers of cell- and face-centred variables, the allocated message sizes equal the number of values packed by the sender and unpacked by the receiver.", "quantifier": "all block sizes, ghost widths, variable counts, dimensionalities and child positions", "why_tests_cant": "Buffer overruns only appear for specific parity/dimension combinations.", "anchors": ["src/mesh/amr_loadbalance.cpp: PrepareSendSameLevel/FineToCoarseAMR/CoarseToFineAMR, FinishRecv*", "src/mesh/mesh.cpp: bssame, bsf2c, bsc2f"]}
{"id": "C27", "title": "Ghost zones are filled from the cells that are there", "statement": "After the blocks have exchanged their boundary messages, in whatever order they are unpacked, every ghost cell of a block that lies in a block of its own level holds that block's value at that place (across periodic boundaries too), every ghost cell that lies in a block of the next finer level holds the restricted value there, and every coarse ghost cell that the prolongation needs holds the value of the coarser block there; all ghost cells inside the domain are of one of these kinds; nothing else is changed. Each message has the length the MPI requests are set up with and fits its buffer. On refined meshes this needs blocks with at least twice as many cells as ghost cells, which the code does not demand.", "quantifier": "all meshes reachable by refinement and derefinement, all blocks, block sizes, ghost widths, numbers of components, values, restriction operators and orders of messages, 1D/2D/3D", "why_tests_cant": "Index arithmetic for every size, direction, tree and position in the tree.", "anchors": ["src/bvals/cc/bvals_cc.cpp: LoadBoundaryBufferSameLevel, LoadBoundaryBufferToCoarser, LoadBoundaryBufferToFiner, SetBoundarySameLevel, SetBoundaryFromCoarser, SetBoundaryFromFiner, ComputeVariableBufferSize", "src/bvals/bvals_var.cpp: SendBoundaryBuffers, SetBoundaries, CopyVariableBufferSameProcess", "src/mesh/mesh.cpp: Mesh::Mesh"]}
{"id": "C28", "title": "Array indexing is a bijection onto the allocated storage", "statement": "For in-range indices the n-dimensional access maps to an offset inside the allocation, different index tuples map to different elements, and a slice views exactly the requested sub-block.", "quantifier": "all dimensions and extents, all in-range indices", "why_tests_cant": "Unbounded sizes.", "anchors": ["src/athena_arrays.hpp: AthenaArray operator(), InitWithShallowSlice, ShallowSlice3DToPencil"]}
{"id": "C29", "title": "Arrays own their storage exactly once through any sequence of operations", "statement": "Under any sequence of construction, copy, move, swap, allocation, slicing and destruction, no storage is freed twice, no freed storage is accessed, and indeterminate members are never read.", "quantifier": "all operation sequences", "why_tests_cant": "Ownership bugs need particular sequences (e.g. copying an empty array).", "anchors": ["src/athena_arrays.hpp: copy/move constructors and assignments, DeleteAthenaArray, SwapAthenaArray, ExchangeAthenaArray"]}
{"id": "C30", "title": "Input parameters survive dump and reload", "statement": "Dumping the parameter store and loading the dump yields a store with the same blocks, parameters and values, in the same order, for all stores whose names and values contain no comment, equals, newline or surrounding blank characters.", "quantifier": "all parameter stores", "why_tests_cant": "Free-form text input.", "anchors": ["src/parameter_input.cpp: ParameterDump, LoadFromStream, ParseLine, AddParameter"]}
{"id": "C31", "title": "Setting a parameter affects exactly that parameter", "statement": "After any sequence of loads, sets and command-line overrides, a read of block/name returns the value most recently written to that block/name, all other parameters are unchanged, and duplicates are merged so each name occurs once per block.", "quantifier": "all operation sequences, all names and values", "why_tests_cant": "History-dependent.", "anchors": ["src/parameter_input.cpp: AddParameter, FindOrAddBlock, Set*, Get*, GetOrAdd*, ModifyFromCmdline"]}
{"id": "C32", "title": "Command line overrides change only existing parameters", "statement": "A block/name=value argument either updates an existing parameter or is rejected as an error; it never creates parameters and never alters others; arguments that are not of this form are ignored.", "quantifier": "all argument lists and parameter stores", "why_tests_cant": "Free-form text.", "anchors": ["src/parameter_input.cpp: ModifyFromCmdline"]}
{"id": "C33", "title": "Restart file regions are disjoint and read back what was written", "statement": "The header, id list and block data written by any number of ranks occupy disjoint byte ranges that together tile the file, and a reader with any other number of ranks that follows the restart procedure obtains for each block the location, cost and data written for it.", "quantifier": "all block counts, writer and reader rank partitions, header and data sizes", "why_tests_cant": "Cannot test all rank-count pairs.", "anchors": ["src/outputs/restart.cpp: RestartOutput::WriteOutputFile", "src/mesh/mesh.cpp: Mesh::Mesh (restart)", "src/mesh/meshblock.cpp: MeshBlock restart constructor, GetBlockSizeInBytes"]}
{"id": "C34", "title": "Restart block records round trip for every physics combination", "statement": "For each combination of enabled physics modules, the block reader consumes the fields in the order, number and size in which the writer stored them and the block size function returns their total, so every field is restored.", "quantifier": "all combinations of physics flags, all field sizes, any number of user arrays", "why_tests_cant": "Combinatorially many builds.", "anchors": ["src/outputs/restart.cpp", "src/mesh/meshblock.cpp: MeshBlock restart constructor, GetBlockSizeInBytes"]}
{"id": "C35", "title": "Time step control never oversteps and ends exactly at the time limit", "statement": "The new time step is at most twice the old one, at most the CFL-limited minimum over all blocks, and never steps past the end time; in exact arithmetic the last step ends exactly at it, and time strictly increases.", "quantifier": "all sequences of block time steps", "why_tests_cant": "History of unbounded length.", "anchors": ["src/mesh/mesh.cpp: Mesh::NewTimeStep", "src/main.cpp: main loop"]}
{"id": "C36", "title": "Output scheduling writes each dump once and in order", "statement": "Over any sequence of time steps, an output with interval dt is written at the first step at or after each scheduled time and file numbers increase by one; scheduled times form the arithmetic progression next_time + k dt.", "quantifier": "all sequences of times", "why_tests_cant": "Depends on time-step history.", "anchors": ["src/outputs/outputs.cpp: Outputs::MakeOutputs", "src/outputs/restart.cpp", "src/parameter_input.cpp: RollbackNextTime, ForwardNextTime"]}
{"id": "C37", "title": "Restriction conserves the cell integrals", "statement": "The restricted coarse cell value times the summed fine volume equals the volume-weighted sum of the fine values, lies between their minimum and maximum, and restriction of face fields conserves the magnetic flux through each coarse face.", "quantifier": "all cell values, all positive volumes/areas, 1D/2D/3D", "why_tests_cant": "Real-valued inputs.", "anchors": ["src/mesh/mesh_refinement.cpp: RestrictCellCenteredValues, RestrictFieldX1, RestrictFieldX2, RestrictFieldX3"]}
{"id": "C38", "title": "Prolongation is conservative, bounded and exact on linear data", "statement": "On a uniform Cartesian mesh the average of the prolonged fine values equals the coarse value (so restriction inverts prolongation), the fine values stay within the bounds of the coarse neighbourhood in each direction, and linear data are reproduced exactly.", "quantifier": "all coarse values, 1D/2D/3D", "why_tests_cant": "Real-valued inputs, limiter case analysis.", "anchors": ["src/mesh/mesh_refinement.cpp: ProlongateCellCenteredValues"]}
{"id": "C39", "title": "Prolonged magnetic fields are divergence free", "statement": "If the fluxes through the shared fine faces of a coarse cell sum to zero, the interior faces computed by prolongation give zero divergence in each of the fine cells; and the shared-face prolongation conserves the flux through each coarse face.", "quantifier": "all field values, all positive areas and edge lengths, 1D/2D/3D", "why_tests_cant": "Real-valued identity; a sign error in one of 12 formulas shows only in 3D AMR MHD.", "anchors": ["src/mesh/mesh_refinement.cpp: ProlongateInternalField, ProlongateSharedFieldX1/2/3"]}
{"id": "C40", "title": "Constrained transport preserves the divergence of B in every cell", "statement": "The update of the face fields from edge electric fields leaves the net magnetic flux out of every cell unchanged, for any electric field and any geometry.", "quantifier": "all fields, all positive face areas and edge lengths, all cells, 1D/2D/3D", "why_tests_cant": "Identity over all real inputs and indices.", "anchors": ["src/field/ct.cpp: Field::CT", "src/field/ct.cpp: Field::CT_STS"]}
{"id": "C41", "title": "The flux-divergence update conserves totals", "statement": "The change of the volume-integrated conserved variables over a block (and over any set of blocks sharing face fluxes) equals minus dt times the net flux through the outer boundary; with periodic boundaries totals are exactly conserved.", "quantifier": "all block sizes, fluxes, geometries", "why_tests_cant": "Telescoping over unbounded sizes.", "anchors": ["src/hydro/add_flux_divergence.cpp: Hydro::AddFluxDivergence", "src/scalars/add_scalar_flux_divergence.cpp"]}
{"id": "C42", "title": "Flux correction makes coarse and fine fluxes agree", "statement": "After flux correction the coarse face flux times area equals the sum of the fine face fluxes times areas, so conservation holds across refinement boundaries.", "quantifier": "all fluxes and areas", "why_tests_cant": "Real-valued.", "anchors": ["src/bvals/cc/flux_correction_cc.cpp: SendFluxCorrection, ReceiveFluxCorrection"]}
{"id": "C43", "title": "Piecewise-linear reconstruction is monotone and exact on linear data", "statement": "The left and right states lie between the cell value and the neighbouring cell values, constant data give constant states, linear data are reproduced at faces, and mirrored data give mirrored states.", "quantifier": "all real cell values, uniform and non-uniform spacing", "why_tests_cant": "Real-valued limiter inputs.", "anchors": ["src/reconstruct/plm_simple.cpp", "src/reconstruct/plm.cpp"]}
{"id": "C44", "title": "Parabolic reconstruction preserves constants and respects monotone bounds", "statement": "On a uniform mesh the PPM face states of a cell in a monotone stretch lie between the neighbouring cell values, constant data are preserved, and mirrored data give mirrored states.", "quantifier": "all real cell values", "why_tests_cant": "Real-valued limiter inputs, many branches.", "anchors": ["src/reconstruct/ppm_simple.cpp", "src/reconstruct/ppm.cpp"]}
{"id": "C45", "title": "Riemann solvers are consistent and upwind", "statement": "For equal left and right states the numerical flux is the physical flux; if all wave speeds have one sign the flux is that of the upwind side; mirrored inputs give mirrored fluxes.", "quantifier": "all physically admissible states", "why_tests_cant": "Real-valued inputs.", "anchors": ["src/hydro/rsolvers/hydro/llf.cpp", "src/hydro/rsolvers/hydro/hlle.cpp", "src/hydro/rsolvers/hydro/hllc.cpp", "src/hydro/rsolvers/mhd/llf_mhd.cpp", "src/hydro/rsolvers/mhd/hlle_mhd.cpp"]}
{"id": "C46", "title": "Equation of state conversions invert each other and enforce floors", "statement": "Converting primitive to conserved and back is the identity when density and pressure are above the floors; after conversion to primitives density and pressure are at least the floors, conserved and primitive states agree, and already valid states are unchanged.", "quantifier": "all states", "why_tests_cant": "Real-valued inputs.", "anchors": ["src/eos/adiabatic_hydro.cpp", "src/eos/isothermal_hydro.cpp", "src/eos/adiabatic_mhd.cpp", "src/eos/eos_scalars.cpp"]}
{"id": "C47", "title": "Physical boundary functions fill the ghost zones correctly", "statement": "Reflecting boundaries mirror every variable with the sign of the normal velocity (and normal field) flipped, outflow boundaries copy the edge cell, and no active cell is modified.", "quantifier": "all block sizes, ghost widths, values, faces", "why_tests_cant": "Index arithmetic for all sizes.", "anchors": ["src/bvals/cc/reflect_cc.cpp", "src/bvals/cc/outflow_cc.cpp", "src/bvals/fc/reflect_fc.cpp", "src/bvals/fc/outflow_fc.cpp", "src/bvals/cc/hydro"]}
{"id": "C48", "title": "Super-time-stepping advances by exactly the requested step", "statement": "For any odd number of stages the RKL1 and RKL2 sweeps leave steady states unchanged, advance a constant right-hand side by the full (half) step, and the number of stages chosen makes the stable parabolic step at least the requested one.", "quantifier": "all stage counts, all states", "why_tests_cant": "Unbounded number of stages.", "anchors": ["src/task_list/sts_task_list.cpp", "src/main.cpp: nstages"]}
{"id": "C49", "title": "Block geometry tiles the domain without gaps", "statement": "Adjacent blocks at the same level share bit-identical boundary positions, a child block's outer faces coincide with its parent's, and the faces at the domain boundary are exactly the mesh limits.", "quantifier": "all block positions and levels", "why_tests_cant": "All levels and positions.", "anchors": ["src/mesh/mesh.cpp: Mesh::SetBlockSizeAndBoundaries", "src/mesh/mesh.hpp: ComputeMeshGeneratorX, DefaultMeshGeneratorX1, UniformMeshGeneratorX1"]}
{"id": "C50", "title": "Cell geometry is positive and additive", "statement": "Cell volumes and face areas are positive for increasing coordinates, the volumes of the cells of a block sum to the block volume, and in Cartesian, cylindrical and spherical-polar coordinates the sum of fine volumes/areas equals that of the coarse cell/face they refine.", "quantifier": "all grids with increasing faces", "why_tests_cant": "Real-valued inputs.", "anchors": ["src/coordinates/cartesian.cpp", "src/coordinates/cylindrical.cpp", "src/coordinates/spherical_polar.cpp", "src/coordinates/coordinates.cpp"]}
{"id": "C51", "title": "Multigrid transfer operators preserve constants and integrals", "statement": "The multigrid restriction preserves the mean, the prolongation reproduces constants and linear functions, and a discrete solution of the equation is a fixed point of the smoother with zero defect.", "quantifier": "all grid sizes and values", "why_tests_cant": "Unbounded sizes, real values.", "anchors": ["src/multigrid/multigrid.cpp: Restrict, ProlongateAndCorrect, FMGProlongate", "src/gravity/mg_gravity.cpp: Smooth, CalculateDefect"]}
{"id": "C52", "title": "The random number generator is reproducible and in range", "statement": "The generator's outputs are determined by the seed, its internal state stays within the documented integer ranges so no overflow occurs, the table index stays in bounds and every output lies strictly between 0 and 1.", "quantifier": "all seeds, all numbers of draws", "why_tests_cant": "Unbounded sequences.", "anchors": ["src/utils/ran2.cpp: ran2"]}
{"id": "C53", "title": "Table interpolation is exact at nodes and bounded", "statement": "Bilinear table lookup returns the table value at grid nodes, lies within the surrounding values inside a cell and never indexes outside the table.", "quantifier": "all table sizes, values and query points", "why_tests_cant": "Real-valued queries incl. out-of-range.", "anchors": ["src/utils/interp_table.cpp: InterpTable2D::interpolate"]}
{"id": "C54", "title": "Orbital advection is an exact, conservative, bounded displacement around the ring", "statement": "One orbital-advection stage on a ring of blocks exchanges messages of exactly the announced sizes and replaces each cell by the mean of the reconstructed profile displaced by velocity times time step around the whole ring. So the total over the ring is kept, a whole-cell displacement is an index rotation across block boundaries, constants stay, and no new extrema appear. The time-step limit keeps the displacement within what the two neighbouring messages carry. The same holds for the face fields advanced through the remap electric field in Cartesian coordinates.", "quantifier": "all numbers and sizes of blocks, lines, variables, real displacements within the limit, cell values, old buffer contents and message orders; PLM and PPM", "why_tests_cant": "Real-valued displacements and values, and any number of blocks.", "anchors": ["src/orbital_advection/orbital_remapping.cpp", "src/orbital_advection/calculate_orbital_advection.cpp", "src/orbital_advection/set_orbital_advection.cpp", "src/bvals/orbital/bvals_orbital.cpp"]}
{"id": "C55", "title": "Primitive variables are computed from fully updated conserved variables", "statement": "In every configuration and every schedule of a stage, the conversion from conserved to primitive variables on a block starts only after every task that changes the conserved variables of that block (integration, source terms, orbital advection, received ghost zones, prolongation) has completed.", "quantifier": "all option combinations and all task-outcome schedules", "why_tests_cant": "A violation needs a particular order of message arrivals that a test run does not control.", "anchors": ["src/task_list/time_integrator.cpp: TimeIntegratorTaskList (CONS2PRIM)", "src/task_list/task_list.cpp: DoAllAvailableTasks"]}
{"id": "C56", "title": "Explicit source terms are integrated with the same weights as the fluxes", "statement": "A source term contributes to a step exactly as if it were part of the flux divergence: in particular a constant source S adds dt*S to the solution in one step.", "quantifier": "all integrators, states, right-hand sides and source terms", "why_tests_cant": "A small deficit in the source weight looks like a physical effect; no test compares a source with an equivalent flux.", "anchors": ["src/task_list/time_integrator.cpp: AddSourceTerms, IntegrateHydro"]}
{"id": "C57", "title": "Operator-split orbital advection covers exactly one step", "statement": "Whatever the splitting order, integrator and mesh configuration, the orbital remaps performed during one step add up to a displacement over exactly dt, and the intermediate register averaging does not lose or duplicate any of it.", "quantifier": "all integrators that accept orbital advection, both splitting orders, with and without shear-periodic boundaries and refinement", "why_tests_cant": "Each of the many configurations has its own table of weights; tests run a few.", "anchors": ["src/task_list/time_integrator.cpp: stage_wghts, CalculateHydroOrbital"]}
{"id": "C58", "title": "The weighted average of registers computes the weighted sum", "statement": "WeightedAve replaces the output register by w0*out + w1*in1 + w2*in2 + w3*in3 + w4*in4, whichever of its specialised branches is taken.", "quantifier": "all weights and register contents", "why_tests_cant": "There are 15 branches selected by exact comparisons on the weights; a run exercises only those of its integrator.", "anchors": ["src/mesh/weighted_ave.cpp: WeightedAve"]}
{"id": "C59", "title": "Every block redistribution message has exactly one matching receive", "statement": "In an adaptive mesh step the messages any rank sends to any other are exactly those the other one receives from it, with the same tag, size class and pair of old and new block; block data are moved between exactly the overlapping old and new blocks that live on different ranks, once each.", "quantifier": "all refinement steps, all rank counts and load balances", "why_tests_cant": "The send and receive loops run on different ranks from different id maps; a mismatch only appears for particular combinations of refinement and rank boundaries, as a hang or as data in the wrong block.", "anchors": ["src/mesh/amr_loadbalance.cpp: RedistributeAndRefineMeshBlocks, PrepareAndSendFaceFieldCorrection"]}
{"id": "C60", "title": "Block counts reported by a mesh update are exact", "statement": "The numbers of created and destroyed blocks reported by a mesh-update step account exactly for the change in the number of MeshBlocks, and the scratch array for derefinement groups is never overrun.", "quantifier": "all refinement histories and all sets of refinement flags", "why_tests_cant": "The step is driven by arbitrary user refinement criteria on arbitrary meshes; a miscount corrupts the block lists only for rare patterns.", "anchors": ["src/mesh/amr_loadbalance.cpp:Mesh::UpdateMeshBlockTree", "src/mesh/meshblock_tree.cpp:MeshBlockTree::Refine", "src/mesh/meshblock_tree.cpp:MeshBlockTree::Derefine"]}
{"id": "C61", "title": "Fast magnetosonic speed", "statement": "The fast magnetosonic speed returned for a gas state is a real number, solves the characteristic equation of ideal MHD, no other solution is larger, it is at least the sound and the Alfven speed, and it is the sound speed when there is no field.", "quantifier": "all non-negative pressures, positive densities and field vectors", "why_tests_cant": "A formula with nested square roots has special values everywhere; tests sample a few states, whereas one state with a negative discriminant or a slow instead of a fast root breaks the time step.", "anchors": ["src/eos/adiabatic_mhd.cpp:FastMagnetosonicSpeed", "src/eos/isothermal_mhd.cpp:FastMagnetosonicSpeed", "src/eos/adiabatic_hydro.cpp:SoundSpeed"]}
{"id": "C62", "title": "Cell-centred magnetic field", "statement": "The cell-centred magnetic field is exact for uniform fields and for fields linear in the coordinate, and is always between the values on the two faces of the cell.", "quantifier": "all face positions, volume centres and face values", "why_tests_cant": "The weights depend on the coordinates of every cell; tests use uniform meshes where the two weights are equal.", "anchors": ["src/field/field.cpp:CalculateCellCenteredField"]}
{"id": "C63", "title": "Upwind weight of constrained transport", "statement": "The weight handed to constrained transport with a mass flux lies between 0 and 1, is one half without flow, is on the side the mass comes from, and mirrored inputs give the complementary weight.", "quantifier": "all mass fluxes, densities, cell sizes and time steps", "why_tests_cant": "Symmetry and range must hold for every flux; tests check problems, not the weight.", "anchors": ["src/hydro/hydro.cpp:GetWeightForCT"]}
{"id": "C64", "title": "First-order update keeps density and pressure positive", "statement": "If every cell has positive density and internal energy, one explicit stage of the first-order scheme (donor cell states, local Lax-Friedrichs fluxes) on a uniform Cartesian block leaves every cell with positive density and internal energy, provided the Courant number is at most one over the number of active directions; in particular with the time step the code computes for such a Courant number. The same holds for HLLE in one dimension at Courant number one half of its wave speeds.", "quantifier": "All states, block sizes, one to three dimensions, adiabatic and isothermal gas, cell widths and time steps.", "why_tests_cant": "Positivity fails only for extreme jumps that no finite set of problems reaches; it has to hold for every pair of states.", "anchors": ["src/hydro/rsolvers/hydro/llf.cpp:RiemannSolver", "src/hydro/rsolvers/hydro/hlle.cpp:RiemannSolver", "src/reconstruct/dc.cpp:DonorCellX1", "src/hydro/add_flux_divergence.cpp:AddFluxDivergence", "src/hydro/new_blockdt.cpp:NewBlockTimeStep", "src/task_list/time_integrator.cpp:cfl_limit"]}
{"id": "C65", "title": "Passive scalar concentrations stay within their bounds", "statement": "Under the same conditions the concentration of a passive scalar after the stage lies between the bounds that held for all cells before it, and a uniform concentration stays exactly uniform whatever the gas does.", "quantifier": "All gas states, scalar fields, block sizes, dimensions and time steps within the Courant limit.", "why_tests_cant": "A maximum principle is a statement about every field and every flow.", "anchors": ["src/scalars/calculate_scalar_fluxes.cpp:ComputeUpwindFlux", "src/scalars/add_scalar_flux_divergence.cpp:AddFluxDivergence", "src/hydro/rsolvers/hydro/llf.cpp:RiemannSolver"]}
{"id": "C66", "title": "A fluid at rest with uniform pressure stays at rest in curvilinear coordinates", "statement": "If the gas has uniform pressure, no velocity across the symmetry directions and no magnetic field, so that the only momentum flux is the pressure on each face, then one stage (flux divergence plus geometric source terms) leaves all three momenta of every cell exactly unchanged in Cartesian, cylindrical and spherical-polar coordinates, in one, two or three dimensions, also next to the axis and the poles.", "quantifier": "all grids of proper cells, all pressures, densities, time steps and block sizes", "why_tests_cant": "A cancellation between terms computed in different functions has to hold for every grid spacing; tests look at a few meshes.", "anchors": ["src/coordinates/cylindrical.cpp: Cylindrical::AddCoordTermsDivergence", "src/coordinates/spherical_polar.cpp: SphericalPolar::AddCoordTermsDivergence", "src/hydro/add_flux_divergence.cpp: Hydro::AddFluxDivergence"]}
{"id": "C67", "title": "Angular momentum is advanced by fluxes alone", "statement": "In cylindrical and spherical-polar coordinates the azimuthal momentum of a cell times the lever arm of the cell changes in a stage by the divergence of (lever arm of the face) x (azimuthal momentum flux): the source terms create no angular momentum, so the angular momentum of a block changes only by what flows through its sides.", "quantifier": "all grids of proper cells, all fluxes, states, time steps and block sizes", "why_tests_cant": "It must hold for every flux and every grid; a drift per step shows in a test only as small noise.", "anchors": ["src/coordinates/cylindrical.cpp: Cylindrical::AddCoordTermsDivergence", "src/coordinates/spherical_polar.cpp: SphericalPolar::AddCoordTermsDivergence"]}
{"id": "C68", "title": "The multigrid solver leaves the exact solution alone, and there is only one", "statement": "The discrete Poisson problem with periodic, zero-gradient, zero or prescribed boundary values has at most one solution (up to a constant if all boundaries are periodic or zero-gradient), and a V-cycle started from the solution returns it, for any number of levels, smoothing steps, relaxation parameter and prolongation, with or without the full approximation scheme; the subtraction of the average removes the free constant.", "quantifier": "all grids, level counts, boundary types, sources and solver settings", "why_tests_cant": "Fixed points and uniqueness range over all sources, all potentials and all depths of the level hierarchy.", "anchors": ["src/multigrid/multigrid_driver.cpp: SolveVCycle, SolveCoarsestGrid, OneStepToFiner, OneStepToCoarser", "src/multigrid/multigrid.cpp: RestrictBlock, ProlongateAndCorrectBlock", "src/gravity/mg_gravity.cpp: MGGravity::Smooth, CalculateFASRHS"]}
{"id": "C69", "title": "A smoothing sweep does not depend on the order of its cells", "statement": "The two red-black sweeps update every cell exactly once, the result of a sweep is the same for every order (and thus for every distribution over threads), it multiplies the defect of each updated cell by one minus the relaxation parameter, and for a parameter between zero and one it never increases the largest error.", "quantifier": "all grids, all orders of the cells, all potentials, sources and relaxation parameters", "why_tests_cant": "The number of schedules is unbounded; a test runs a few of them.", "anchors": ["src/gravity/mg_gravity.cpp: MGGravity::Smooth"]}
{"id": "C70", "title": "The multigrid iteration always ends and reports convergence truthfully", "statement": "Whatever a V-cycle does, the iteration stops after at most 102 cycles; if it stops without a warning because of the threshold, the defect norm is at most the threshold and so bounds the residual of every cell; it stops early only if the last cycle failed to reduce the norm.", "quantifier": "all cycles, norms, thresholds and grids", "why_tests_cant": "Needs an argument over all sequences of norms, including stagnating and diverging ones.", "anchors": ["src/multigrid/multigrid_driver.cpp: SolveIterative, CalculateDefectNorm"]}
{"id": "C71", "title": "Ghost zones next to coarser blocks are interpolated from current values only", "statement": "After the exchange, every ghost cell of a block that lies in a coarser block is prolongated from coarse values each of which, wherever the slopes need it, is the value the coarser block holds there, the restriction of the current values of the block itself or of a neighbour of its own level, or the result of the boundary function beyond a physical boundary. The order of the neighbours and the old contents of ghost cells and coarse buffer do not matter, and all other cells keep the exchanged values.", "quantifier": "all mesh refinement histories, block sizes, orders of the neighbours, values, old buffer contents and local operators, with two ghost cells", "why_tests_cant": "The configurations of coarser, equal and finer neighbours around a block, and stale buffer contents, cannot be enumerated by tests.", "anchors": ["src/bvals/bvals_refine.cpp: BoundaryValues::ProlongateBoundaries, RestrictGhostCellsOnSameLevel, ApplyPhysicalBoundariesOnCoarseLevel, ProlongateGhostCells", "src/bvals/cc/bvals_cc.cpp: LoadBoundaryBufferToCoarser"]}
{"id": "C72", "title": "A step conserves exactly on every refined mesh", "statement": "On a mesh of blocks of any levels, the update of the cells with the fluxes that the blocks have exchanged and corrected changes the volume-weighted sum of a conserved variable over the whole mesh by exactly what flows through the non-periodic boundaries of the domain, and not at all if all boundaries are periodic: at every boundary between levels what leaves one block enters the other. The order in which the messages of the correction are handled, and whether a block sends before or after it has received, make no difference. The fluxes need only agree between blocks of the same level, which they do when each block computes them from its variables with ghost zones filled by the exchange.", "quantifier": "all mesh refinement histories, block sizes, geometries whose face areas match, flux functions of the cells next to a face, values, time steps and orders of the messages", "why_tests_cant": "Whether every one of the boundaries between levels, across edges, corners and periodic boundaries, is corrected exactly once depends on the whole tree; tests see a few trees and only round-off level errors distinguish a missing correction from truncation error.", "anchors": ["src/bvals/cc/flux_correction_cc.cpp: SendFluxCorrection, ReceiveFluxCorrection, LoadFluxBoundaryBufferToCoarser, SetFluxBoundaryFromFiner", "src/bvals/bvals_base.cpp: BoundaryBase::SearchAndSetNeighbors", "src/hydro/add_flux_divergence.cpp: Hydro::AddFluxDivergence"]}
{"id": "C73", "title": "Blocks agree on the electromotive force of every edge they share", "statement": "On a mesh of blocks of any levels, the exchange of electromotive forces (EMFs) never waits for a message that is not sent. Afterwards the EMF of an edge is the mean of the values computed by all blocks that touch the edge; where blocks of two levels touch it, the mean of those of the finer ones alone, weighted with the lengths of the finer edges. So all blocks of a level hold the same EMF on an edge they share, and a coarse block holds the length-weighted mean of what each finer block holds on the two halves of the edge, whether they touch across a face, across an edge, across a periodic boundary or in the middle of a face where two finer blocks meet. The order of the messages makes no difference.", "quantifier": "all mesh refinement histories, block sizes, edge lengths that agree between blocks, EMFs and orders of the messages", "why_tests_cant": "An edge can be shared by two to four blocks of the same or two levels, directly or over periodic boundaries; the divisors and which messages are sent depend on the levels of all of them. A missing or doubled message leaves a divergence of the field at round-off or truncation level that few tests look for.", "anchors": ["src/bvals/fc/flux_correction_fc.cpp: SendFluxCorrection, ReceiveFluxCorrection, SetFluxBoundarySameLevel, SetFluxBoundaryFromFiner, ClearCoarseFluxBoundary, AverageFluxBoundary", "src/bvals/fc/bvals_fc.cpp: CountFineEdges", "src/bvals/bvals_base.cpp: BoundaryBase::SearchAndSetNeighbors"]}
{"id": "C74", "title": "Refined meshes keep the magnetic field divergence-free and consistent between blocks", "statement": "However a mesh of blocks of several levels has come about, and whatever electromotive forces each block computes, constrained transport with the corrected EMFs keeps two facts for the fields of all registers of the time integrator: blocks of one level hold the same normal field on every face they share, and the magnetic flux through a coarse face next to a finer block is that through the finer faces on it; and no cell of any block gains magnetic charge. Averages of registers with the weights of the integrators and copies keep them too, over any number of stages and steps.", "quantifier": "all mesh refinement histories, block sizes, geometries whose lengths and areas match, EMFs, message orders, weights and sequences of updates, averages and copies", "why_tests_cant": "The flux through a coarse face and through the four finer ones on it are updated by different blocks from different edges; they stay equal only if every one of the EMFs on the edges around them is the same or the weighted mean. A mismatch appears as a small monopole at some edge of some block after some history of refinements.", "anchors": ["src/field/ct.cpp: Field::CT", "src/bvals/fc/flux_correction_fc.cpp: ReceiveFluxCorrection", "src/field/calculate_corner_e.cpp: Field::ComputeCornerE", "src/mesh/weighted_ave.cpp: MeshBlock::WeightedAve"]}
{"id": "C75", "title": "Ghost zones of the magnetic field hold what the neighbours hold and carry no magnetic charge", "statement": "On every mesh that refinements lead to, after the messages of the face-centred field have been unpacked in any order, both faces of every ghost cell hold, in each direction, the value of the block that owns the cell there (restricted, if that block is finer), and the faces around the coarse buffer those of the coarser blocks; the faces of the block itself, those on its boundary included, are never overwritten. Every message has the length both sides set their requests up for and fits its buffer. If no cell of the mesh is a source of magnetic flux, then no such ghost cell and no such cell of the coarse buffer is.", "quantifier": "all mesh refinement histories, blocks, block sizes, message orders, face-centred fields that agree on shared faces, geometries whose areas match", "why_tests_cant": "Two neighbours may both send the same face, and the ranges leave out or include the shared plane depending on the kind of neighbour and on refinement; an index off by one leaves a stale face that only some constellation of levels, offsets and message orders reveals.", "anchors": ["src/bvals/fc/bvals_fc.cpp: LoadBoundaryBufferSameLevel, LoadBoundaryBufferToCoarser, LoadBoundaryBufferToFiner, SetBoundarySameLevel, SetBoundaryFromCoarser, SetBoundaryFromFiner, ComputeVariableBufferSize, SetupPersistentMPI", "src/mesh/mesh_refinement.cpp: RestrictFieldX1, RestrictFieldX2, RestrictFieldX3"]}
{"id": "C76", "title": "Refining and derefining the mesh neither creates nor loses anything", "statement": "An adaptive step leaves the sum of volume times value over all cells unchanged for every cell-centred variable, whatever blocks are refined and derefined at the same time and wherever the blocks are moved. A block that is neither refined nor derefined keeps the values of all its cells. The values of the new blocks lie between the smallest and the largest of the old ones, so densities stay positive. They do not depend on the number of ranks, on the distribution of blocks over them, or on what buffers and newly allocated arrays happened to hold. Over any run of updates with flux correction, averages of registers, ghost-zone fills and adaptive steps on a periodic mesh, the total stays what it was.", "quantifier": "all refinement steps of all tree histories, distributions over ranks, block sizes, values, contents of buffers; volumes and positions that match between parents and children (proved for uniform Cartesian meshes); runs of any length", "why_tests_cant": "Data takes different routes for blocks on the same rank and on others, for each of up to eight children, in one, two and three dimensions; an index off by one in one of them corrupts a strip of cells in one constellation only.", "anchors": ["src/mesh/amr_loadbalance.cpp: Mesh::RedistributeAndRefineMeshBlocks, PrepareSendSameLevel, PrepareSendCoarseToFineAMR, PrepareSendFineToCoarseAMR, FillSameRankFineToCoarseAMR, FillSameRankCoarseToFineAMR, FinishRecvSameLevel, FinishRecvFineToCoarseAMR, FinishRecvCoarseToFineAMR", "src/mesh/mesh_refinement.cpp: RestrictCellCenteredValues, ProlongateCellCenteredValues"]}
{"id": "C77", "title": "The temperature equation is solved exactly", "statement": "The solver of coef4 x^4 + x + tconst = 0 used by the implicit radiation source terms returns, for positive coef4, the one solution that is not negative, and reports failure exactly when there is none. Where it switches to an asymptotic formula the result solves the equation with a constant that differs by at most a relative 1e-20.", "quantifier": "all positive coef4 and all tconst", "why_tests_cant": "The closed formula goes through a resolvent cubic, cube roots and nested square roots of either sign; samples do not show that no branch is taken wrongly.", "anchors": ["src/utils/fourth_polynomial_root.cpp: FouthPolyRoot"]}
{"id": "C78", "title": "Linear systems are solved, matrices inverted and vectors rotated", "statement": "For every invertible matrix of any size the LU decomposition with partial pivoting followed by substitution returns the solution of the linear system for every right-hand side, and the inversion routine returns the inverse. A row of zeros ends the program. Rotating a vector keeps its length and the inverse rotation undoes it.", "quantifier": "all sizes, invertible matrices, right-hand sides, angles and vectors", "why_tests_cant": "Pivoting depends on the values; an error in the recorded interchanges only shows for particular orders of magnitudes.", "anchors": ["src/utils/matrix_mult.cpp: Ludcmp_nr, Lubksb_nr, InverseMatrix, MatrixMult", "src/utils/rotate_vectors.cpp: RotateVec, InvRotateVec"]}
{"id": "C79", "title": "Angular grids integrate isotropic radiation exactly", "statement": "The directions of the angular grids are unit vectors, their weights sum to one, an isotropic intensity has no flux and the pressure tensor one third of the unit matrix. For the octant grids this holds with two to six levels, for the grid in the angles zeta and psi with any number of angles whose product is even. With seven levels or one, and with an odd product, arrays are accessed outside their bounds.", "quantifier": "all numbers of levels of the octant grid, all numbers of angles of the other one", "why_tests_cant": "The number of angles is an input parameter; the sums involve square roots and trigonometric functions that cancel only as a whole.", "anchors": ["src/nr_radiation/angulargrid.cpp: NRRadiation::AngularGrid", "src/nr_radiation/radiation.cpp: NRRadiation::NRRadiation", "src/utils/permutation.cpp: Permutation"]}
{"id": "C80", "title": "Diffusion makes no new extrema", "statement": "Diffusive fluxes of passive scalars and heat point from larger to smaller values in every geometry. On a uniform Cartesian block a step within the diffusive limit keeps every concentration and every temperature between the bounds of the old values: with uniform density the limit of the code suffices, otherwise it has to be reduced for the density contrast, and for heat the adiabatic index must not exceed two.", "quantifier": "all blocks in one, two and three dimensions, states, coefficients and time steps within the limit", "why_tests_cant": "Whether the limit suffices depends on the values in all neighbouring cells; only a proof covers all of them, and the two failures need contrasts or indices that tests rarely use.", "anchors": ["src/scalars/scalar_diffusion.cpp: DiffusiveFluxIso, NewDiffusionDt", "src/hydro/hydro_diffusion/conduction.cpp: ThermalFluxIso", "src/hydro/hydro_diffusion/hydro_diffusion.cpp: NewDiffusionDt"]}
{"id": "C81", "title": "Viscosity is Newtonian and dissipates", "statement": "The viscous flux of a velocity linear in the coordinates is that of a Newtonian fluid without bulk viscosity; rigid rotation has none, in Cartesian, cylindrical and spherical polar coordinates. On a periodic mesh with uniform density and viscosity every velocity field loses kinetic energy. The energy a cell gains beyond the work is the friction at its faces.", "quantifier": "all linear velocity fields, all rotations and grids, all velocity fields on periodic meshes of any size", "why_tests_cant": "The statement ranges over all velocity fields and mesh sizes; the dissipation is a sum over the whole mesh of terms without definite sign.", "anchors": ["src/hydro/hydro_diffusion/viscosity.cpp: ViscousFluxIso, DivVelocity, FaceXdx, FaceXdy, FaceXdz, FaceYdx, FaceYdy, FaceYdz, FaceZdx, FaceZdy, FaceZdz"]}
{"id": "C82", "title": "Resistivity removes magnetic energy", "statement": "The current computed from a magnetic field that is linear in the coordinates is its curl. On a periodic Cartesian mesh an explicit step of Ohmic resistivity within the diffusive limit never raises the magnetic energy, for any distribution of the resistivity, in one, two and three dimensions and over any number of steps. In one dimension the same holds for ambipolar diffusion, and the energy flux leaves exactly the Joule heat E.J, never negative, in each cell.", "quantifier": "all mesh sizes, fields, distributions of the coefficients and steps within the limit", "why_tests_cant": "Stability of the explicit step is a statement about all fields on meshes of all sizes; the failure of ambipolar diffusion in two dimensions needs a particular arrangement of field and diffusivity.", "anchors": ["src/field/field_diffusion/diffusivity.cpp: CalcCurrent, OhmicEMF, AmbipolarEMF, PoyntingFlux", "src/field/field_diffusion/field_diffusion.cpp: CalcDiffusionEMF, NewDiffusionDt", "src/field/ct.cpp: CT"]}
{"id": "C83", "title": "Source terms do the work of their forces", "statement": "The energy that constant acceleration, self-gravity and the shearing box give to a cell is the velocity of its gas times the momentum they give it; a point mass, a rotating frame and orbital advection do so up to the square of the relative width of a cell, plus the Maxwell stress times the background shear. With mass advection the sum of the energy of the gas and density times potential changes by fluxes through faces alone, so its total on a periodic mesh is conserved. Self-gravity exerts no net force on a periodic mesh whose potential solves the discrete Poisson equation. Forces in rotating and orbiting frames together with the geometric sources are those of the frame at rest. Density and inactive cells are never touched. The derivatives of the default orbital velocities are their derivatives.", "quantifier": "all states, fluxes, potentials, geometries, parameters and mesh sizes", "why_tests_cant": "Exact balances are statements about all states; two of the source functions add a term that tests with round parameters do not notice.", "anchors": ["src/hydro/srcterms/hydro_srcterms.cpp: HydroSourceTerms, AddSourceTerms", "src/hydro/srcterms/constant_acc.cpp", "src/hydro/srcterms/pointmass.cpp", "src/hydro/srcterms/self_gravity.cpp", "src/hydro/srcterms/shearing_box.cpp", "src/hydro/srcterms/rotating_system_srcterms.cpp", "src/hydro/srcterms/orbital_advection_srcterms.cpp", "src/orbital_advection/default_orbital_velocity.cpp"]}
{"id": "C84", "title": "Outputs report what is in the mesh", "statement": "A block takes part in an output with slices exactly if it holds all positions asked for, and of blocks in a row exactly one does. The data written are the cell that holds the position along a sliced direction, the sum over the range along a summed one and the data themselves along the others, so sums keep totals. Cartesian components of vectors keep lengths and angles and point along the coordinate lines. The conversion out of the system of orbital advection describes the same gas with the orbital velocity added and the same internal energy, and conversions after a reset are those of the present data. Each column of a history file holds the integral over the mesh (or the sum, maximum or minimum of the user values) of what its label says, however the blocks are spread over ranks, and the column of a conserved quantity does not change on a periodic mesh.", "quantifier": "all blocks, data, requests, configurations, numbers of scalars and frequencies, distributions over ranks", "why_tests_cant": "The layout of the columns depends on the configuration and no test enables all modules; slices and sums range over all positions and mesh sizes.", "anchors": ["src/outputs/outputs.cpp: TransformOutputData, SliceOutputData, SumOutputData, CalculateCartesianVector", "src/outputs/history.cpp: WriteOutputFile", "src/orbital_advection/orbital_system_conversion.cpp: ConvertOrbitalSystem"]}
{"id": "C85", "title": "Relativistic runs see the spacetime they asked for", "statement": "In Minkowski, Schwarzschild and Kerr-Schild coordinates the metric and inverse handed out at every cell and face are those of the spacetime at that place and inverse to each other, and indices are raised and lowered with them. At every face there is one orthonormal frame, at rest in the time slice and adapted to the face, such that velocities and fields are handed to the Riemann solver in it and fluxes of mass, energy, momentum and field are returned as the components of the same tensors. The source terms are half the derivatives of the metric contracted with the stress-energy tensor of the magnetized gas, and the volumes and areas are integrals of the root of the determinant of the metric.", "quantifier": "all masses and spins, all grids outside the horizon (Schwarzschild) or with positive radius (Kerr-Schild), all states and all field tensors", "why_tests_cant": "a test checks known flows at given positions; the identities hold between dozens of hand-expanded tensor components at every radius, angle, spin and state", "anchors": ["src/coordinates/minkowski.cpp", "src/coordinates/schwarzschild.cpp", "src/coordinates/kerr-schild.cpp", "CellMetric", "Face1Metric", "Face2Metric", "Face3Metric", "PrimToLocal1", "PrimToLocal2", "PrimToLocal3", "FluxToGlobal1", "FluxToGlobal2", "FluxToGlobal3", "AddCoordTermsDivergence", "RaiseVectorCell", "LowerVectorCell", "CellVolume", "Face1Area", "Face2Area", "Face3Area"]}
{"id": "C86", "title": "Chemistry conserves nuclei and covers the step exactly", "statement": "The explicit chemistry integrator, when it returns, has taken at most nsub_max explicit substeps whose lengths add up to the time step of the run, each changing no abundance by more than the Courant fraction of itself (or of the reference abundance); it touches neither density, momentum nor field, and whatever the reactions conserve is conserved unless the abundance floor acts. In the H2 and GOW17 networks the rates of change are those of the documented reactions, nuclei of every element and charge add up, and no species that is absent is consumed; in G14Sod helium and charge are conserved. Exceptions are named and refuted.", "quantifier": "all abundances, rate coefficients, densities, energies, time steps and integrator parameters; all networks for the integrator", "why_tests_cant": "a test integrates one mixture towards equilibrium; a wrong entry in a reaction table only shows for the mixtures in which that reaction matters", "anchors": ["src/chemistry/forward_euler.cpp", "ODEWrapper::Integrate", "GetChemTime", "IntegrateOneSubstep", "src/chemistry/network/H2.cpp", "src/chemistry/network/gow17.cpp", "src/chemistry/network/G14Sod.cpp", "ChemNetwork::RHS", "ChemNetwork::GetGhostSpecies"]}
{"id": "C87", "title": "Characteristic projection is invertible and belongs to the equations", "statement": "Reconstruction in characteristic variables (time/xorder = 2c, 3c) projects differences or states on the waves of the system and back. Going there and back changes nothing, in each direction, for hydrodynamics and magnetohydrodynamics, adiabatic or isothermal; every projected component moves at the speed of its own wave (entropy, sound, slow, Alfven, fast) as given by the linearised equations and the dispersion relation; hence linear data (2c) and uniform data (3c) are reproduced at the faces. In cells whose transverse field vanishes the transverse velocity and field are lost on the way back (refuted).", "quantifier": "all states with positive density and pressure, all adiabatic indices or sound speeds, all field strengths and directions, all directions of reconstruction, all vectors, meshes and limiters", "why_tests_cant": "the eigenvectors have special cases where the field or the difference of speeds vanishes; a test samples a few states and an error of rounding size hides in the truncation error", "anchors": ["src/reconstruct/characteristic.cpp", "Reconstruction::LeftEigenmatrixDotVector", "Reconstruction::RightEigenmatrixDotVector", "src/reconstruct/plm.cpp", "src/reconstruct/ppm.cpp", "PiecewiseLinearX1", "PiecewiseParabolicX1"]}
{"id": "C88", "title": "Cosmic rays exchange energy and momentum with the gas consistently", "statement": "The implicit source step gives the one solution of the backward-Euler equations of scattering, for any time step, along the grid axes or along and across the magnetic field. Momentum plus cosmic-ray flux over vmax is conserved in every cell; total energy is conserved whenever neither energy would become negative (otherwise refuted, in both directions); cosmic rays carried with the gas are in equilibrium; without back reaction the gas is untouched. Streaming runs along the field at the Alfven speed down the pressure gradient. The flux between cells is consistent, upwind, mirror symmetric, with signal speeds at most vmax/sqrt 3. A uniform population at rest stays uniform and at rest in Cartesian, cylindrical and spherical-polar coordinates. With a field but no streaming the flux is destroyed; with a field at 45 degrees the signal speed in a transparent medium is zero; in spherical-polar coordinates a uniform population is given a pressure gradient along theta (all refuted).", "quantifier": "all states, time steps, opacities, field directions, velocities with sum |vtot_i v_i| < 3/4 vmax^2, all blocks of positive extent in the three coordinate systems", "why_tests_cant": "a test runs one problem with one opacity and compares within truncation error; guards, vanishing opacities and special field directions are met only by chance", "anchors": ["src/cr/integrators/cr_source.cpp", "CRIntegrator::AddSourceTerms", "src/cr/integrators/cr_flux.cpp", "CRIntegrator::CRFlux", "src/cr/integrators/cr_transport.cpp", "CRIntegrator::CalculateFluxes", "CRIntegrator::FluxDivergence", "src/cr/cr.cpp", "DefaultOpacity", "DefaultStreaming", "src/coordinates/spherical_polar.cpp", "src/coordinates/cylindrical.cpp"]}
{"id": "C89", "title": "Gas and radiation exchange energy and momentum consistently", "statement": "Intensities and directions can be transformed to the frame of the gas and back without change, directions stay unit vectors. The implicit absorption, emission and scattering step gives the one solution of the backward-Euler transfer equations and of the energy equation of the gas (to twenty digits); without floors the energy the gas gains is the energy the radiation loses in the frame of the gas; thermal radiation of the gas temperature stays as it is. Momentum and energy of gas plus radiation are conserved in every cell as long as no limit acts; afterwards speed and temperature respect their limits. The moments satisfy: trace of the pressure equals the energy density, flux at most the energy density, pressure symmetric without a negative direction.", "quantifier": "every set of directions and weights, every gas velocity below the light speed, all opacities, densities, temperatures, intensities and time steps", "why_tests_cant": "The result depends on continuous velocities, angles, opacities and the root of a quartic equation; tests sample a few states and cannot show that the equations are solved for every optical depth or that the transformations invert for every velocity.", "anchors": ["src/nr_radiation/integrators/frame_transform.cpp: LabToCom, ComToLab, ComAngle", "src/nr_radiation/integrators/rad_source.cpp: CalSourceTerms, GetHydroSourceTerms, AddSourceTerms", "src/nr_radiation/integrators/srcterms/absorption_scattering.cpp: AbsorptionScattering", "src/nr_radiation/get_moments.cpp: CalculateMoment"]}
{"id": "C90", "title": "Relativistic gas is converted between conserved and primitive variables consistently", "statement": "In special-relativistic hydrodynamics the conserved variables are the densities of rest mass, energy and momentum of the gas and determine it: no two states of positive density share them. Converting a state above the floors to conserved variables and back returns it exactly when the cell holds its pressure. From any other starting pressure an accepted result has exactly the given rest-mass density, the given energy up to the tolerance and a parallel momentum. After the conversion every cell, whatever it held before, respects the density and pressure floors and the limit of the Lorentz factor, and its conserved variables are untouched or those of the primitive ones. Sound travels faster than the gas and slower than light in both directions.", "quantifier": "every adiabatic index above 1 and up to 2, all densities, pressures and velocities, every conserved state and every starting pressure", "why_tests_cant": "The inversion is an iteration for a root of a nonlinear equation with clipping and acceleration; tests sample states and cannot show uniqueness, accuracy for every state or that no input leaves the cell outside of the limits.", "anchors": ["src/eos/adiabatic_hydro_sr.cpp: ConservedToPrimitive, PrimitiveToConserved, ConservedToPrimitiveNormal, SoundSpeedsSR"]}
{"id": "C91", "title": "The Doppler shift of radiation between frequency groups conserves it and can be undone", "statement": "When the radiation of a direction is carried between the frame of the gas and the fixed frame, each frequency group gives to every group the part of its linear spectrum that lies at the frequencies of that group. The radiation summed over the groups does not change, in either direction and for every shift; no negative intensity appears; in gas at rest nothing moves. The spectrum at the edges of the groups is nowhere negative and has the intensity of the group as its mean unless it had to be cut at zero. For shifts to higher frequencies the inverse mapping returns radiation that maps to its input, and recovers exactly any mapped non-negative radiation.", "quantifier": "all numbers of groups, all increasing frequency grids, all shifts, all intensities, every fit of the Planck function", "why_tests_cant": "The rows of the mapping depend on the grid, the shift and the intensities together; unit tests sample a few grids, and conservation and invertibility must hold for every one.", "anchors": ["src/nr_radiation/integrators/multi_group.cpp: GetCmMCIntensity, ForwardSplitting, BackwardSplitting, SplitFrequencyBinLinear, MapIrcmFrequency, InverseMapFrequency, MapLabToCmFrequency, MapCmToLabFrequency"]}
{"id": "C92", "title": "Shearing-box boundaries connect the gas of both sides at the sheared positions and conserve it", "statement": "At the boundaries of a shearing box every ghost cell of every block along the boundary receives the mean, over the cell displaced by the shear at that time, of the profile reconstructed along the whole periodic boundary, to the right at the inner side and to the left at the outer side; the exchange of messages never fails, whatever the number and size of the blocks and however long the run. A shear by a whole number of cells copies values and up to second order no new extrema appear. The averaged fluxes of the two sides have the same total, so that what leaves at one side enters at the other. The momentum of the copied gas changes by the velocity difference and its internal energy does not.", "quantifier": "all block sizes and numbers of blocks, all non-negative shears, all values, every cell including the ghost zones", "why_tests_cant": "Which blocks exchange which ranges of cells changes in time and depends on the block sizes, the ghost zones and the order of reconstruction; tests sample a few times and decompositions.", "anchors": ["src/bvals/bvals.cpp: ComputeShear", "src/bvals/cc/bvals_shear_cc.cpp: LoadShearingBoxBoundarySameLevel, SetShearingBoxBoundarySameLevel, SetShearingBoxBoundaryBuffers", "src/bvals/cc/bvals_shear_flux.cpp", "src/bvals/cc/hydro/bvals_shear_hydro.cpp: ShearQuantities", "src/orbital_advection/orbital_remapping.cpp: RemapFluxPlm, RemapFluxPpm"]}
{"id": "C93", "title": "Magnetic fields cross shearing-box boundaries without divergence", "statement": "In a magnetised shearing box every x2-face of the ghost zones receives the mean of the field reconstructed along the whole periodic boundary, displaced by the shear, and the exchange never fails. Every ghost cell at the boundary is free of divergence whatever the other side sends. Two blocks that share a face of the boundary before the exchange agree about it afterwards, for the field and for the averaged electromotive forces. The averaged electromotive forces of the two boundaries have the same total, so that the boundary creates no net field.", "quantifier": "all block sizes and numbers of blocks, all non-negative shears, all fields and electromotive forces whose shared faces agree, every face including the ghost zones", "why_tests_cant": "Faces are shared by blocks and one face more is sent per message than cells; whether every combination of block size, ghost zones and time sends the right faces and keeps the divergence zero cannot be sampled.", "anchors": ["src/bvals/fc/bvals_shear_fc.cpp: LoadShearingBoxBoundarySameLevel, SetShearingBoxBoundarySameLevel, SetShearingBoxBoundaryBuffers", "src/bvals/fc/bvals_shear_emf.cpp: LoadEMFShearingBoxBoundarySameLevel, SetEMFShearingBoxBoundarySameLevel, SetEMFShearingBoxBoundaryCorrection", "src/bvals/fc/bvals_fc.cpp: StartReceiving"]}
{"id": "C94", "title": "The isothermal MHD solver returns the flux of an exact set of waves", "statement": "For isothermal magnetised gas the HLLD solver returns the physical flux for equal states, the flux of the upstream side when all fast waves move in one direction, and otherwise the flux of the region around the face in a fan of four discontinuities that satisfy the jump conditions of mass, momentum and transverse field, with positive density between them and the inner two moving at the Alfven speed of that gas. A single Alfven wave is resolved exactly. Mirroring the states mirrors the flux.", "quantifier": "all sound speeds, densities, velocities and magnetic fields; the fan for states that are not degenerate and not below the density floor", "why_tests_cant": "The states between the waves are rational functions of the input with removable singularities and case distinctions; tests sample shock tubes.", "anchors": ["src/hydro/rsolvers/mhd/hlld_iso.cpp: Hydro::RiemannSolver"]}
{"id": "C95", "title": "The low-dissipation MHD solver keeps the guarantees of HLLD", "statement": "The low-dissipation HLLD solver returns the physical flux for equal states and the flux of the upstream side for contact discontinuities and for flows faster than all waves, whatever its shock detector measures. Its middle wave lies strictly between the outer waves, the densities next to it are positive, and no root of a negative number is taken. Mirroring the states mirrors the flux, and where both corrections are switched off it is HLLD.", "quantifier": "all adiabatic indices above 1, positive densities and pressures, velocities, fields and detector values", "why_tests_cant": "The corrections are nonlinear in the local Mach and Alfven numbers; tests sample a few problems.", "anchors": ["src/hydro/rsolvers/mhd/lhlld.cpp: Hydro::RiemannSolver"]}
{"id": "C96", "title": "Relativistic Riemann solvers keep the gas admissible", "statement": "The LLF and HLLE solvers of special-relativistic hydrodynamics return the physical flux for equal states, mirror with the states, and return the flux of a fan of two waves slower than light around densities that a gas can have (positive rest mass, more energy than rest mass and momentum require). HLLE returns the upstream flux when all waves move in one direction. A first-order step in which the waves do not cross the cell therefore keeps every cell admissible.", "quantifier": "all adiabatic indices in (1,2], positive densities and pressures, and velocities below that of light, on both sides of a face and in three neighbouring cells", "why_tests_cant": "Admissibility is an inequality between nonlinear functions of both states that is tightest near the speed of light and at low density; tests sample shock tubes.", "anchors": ["src/hydro/rsolvers/hydro/llf_rel.cpp: LLFTransforming", "src/hydro/rsolvers/hydro/hlle_rel.cpp: HLLETransforming", "src/eos/adiabatic_hydro_sr.cpp: SoundSpeedsSR"]}
{"id": "C97", "title": "Relativistic HLLC resolves the contact", "statement": "The HLLC solver of special-relativistic hydrodynamics returns the flux of three waves that satisfy the jump conditions: the contact lies between the outer waves, the gas on both sides of it moves with it at one common pressure and with positive rest-mass density. It returns the physical flux for equal states, the upstream flux when all waves move in one direction, and the exact flux of a contact discontinuity, including jumps in the tangential velocity, and mirrors with the states. Gases that do not move apart exert a positive force on each other.", "quantifier": "all adiabatic indices in (1,2], positive densities and pressures and velocities below that of light on both sides of a face, with an averaged energy flux that is zero or above the threshold of the quadratic formula", "why_tests_cant": "The contact speed is a root of a quadratic whose choice and place between the waves depends on both states; tests sample shock tubes.", "anchors": ["src/hydro/rsolvers/hydro/hllc_rel.cpp: HLLCTransforming"]}
