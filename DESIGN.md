# Formal model of Athena++ in Rocq: design

## Layout

`rocq/theories/` holds, per topic `X`:

* `X_Model.v` – executable Gallina model of the C++ functions; each definition cites the `/repo` file and lines it models and names its simplifications.
* `X_Spec.v` (where a separate vocabulary is needed) – the small independent specification used in the statements.
* `X_Proofs*.v` – lemmas.
* `X_Props.v` – the property theorems, `Print Assumptions` for each, and `Example`s showing that the hypotheses are met by concrete non-trivial cases.

`properties.jsonl` lists the properties, `MANIFEST.json` maps them to theorems, `seeded/LOG.jsonl` records the tests of the theorems against wrong programs.
A property that is false of the code is kept, the part that is true is proved, and a theorem with suffix `_refuted` exhibits a reachable counterexample.

## Conventions of the model

* Integers are unbounded `Z`/`nat`/`N` unless a property is about overflow or bit fields (C22, C23, C33, C52).
* Floating-point values are exact reals `R` (or `Q`), so rounding is *not* modelled, with these exceptions: C20 (any arithmetic, and IEEE binary64 from the standard library's `SpecFloat` for the refutation), C49 (any rounding function).
* Undefined behaviour, fatal errors and null dereferences are the distinct outcome `None` where they can happen; theorems say that they do not.
* A loop nest whose iterations write different entries is a function of the entry; where order or aliasing matters (packing, boundary fills, smoothing sweeps, array ownership) the loop and its order are kept.
* The MPI runtime is represented by its contract: a message arrives unchanged at the receive with the matching rank and tag (C16, C22, C23, C59), arrival times are an oracle (C02–C04), file writes go to byte offsets (C33).

## What is modelled

| topic | source files | properties |
|----|----|----|
| `Tasks` | `task_list/task_id.cpp`, `task_list.hpp`, `task_list.cpp`; assembly of all lists: `time_integrator.cpp`, `sts_task_list.cpp`, `grav_task_list.cpp`, `crdiffusion_task_list.cpp`, `chem_rad_task_list.cpp`, `im_rad*_task_list.cpp`, `mg_task_list.cpp` | C01–C04, C55 |
| `RK` | `task_list/time_integrator.cpp` (weights, stages, source and orbital tasks), `mesh/weighted_ave.cpp` | C05, C06, C56–C58 |
| `Tree`, `Nbr`, `Loc` | `mesh/meshblock_tree.cpp`, `mesh/amr_loadbalance.cpp` (UpdateMeshBlockTree), `bvals/bvals_base.cpp` (SearchAndSetNeighbors), `mesh/mesh_refinement.cpp` (CheckRefinementCondition) | C07–C17, C19, C60 |
| `AMR` | `mesh/amr_loadbalance.cpp` (RedistributeAndRefineMeshBlocks, face field correction pairs) | C18, C22, C59 |
| `LB` | `mesh/amr_loadbalance.cpp` (CalculateLoadBalance) | C20, C21 |
| `Tags` | `bvals/bvals_base.cpp`, `bvals/bvals.cpp`, `mesh/amr_loadbalance.cpp` (tags, physics ids, buffer slots) | C22–C24 |
| `Buf` | `utils/buffer_utils.cpp`, `mesh/mesh.cpp`, `mesh/amr_loadbalance.cpp` (block transfer messages) | C25, C26 |
| `Gho` | `bvals/bvals_var.cpp`, `bvals/cc/bvals_cc.cpp` (ghost zones of cell-centred variables), size checks of `mesh/mesh.cpp` | C27 |
| `Pro` | `bvals/bvals_refine.cpp` (restriction and prolongation of ghost zones next to coarser blocks) | C71 |
| `Con` | `bvals/cc/flux_correction_cc.cpp` on whole meshes, with the neighbour lists of `Nbr` and the update of `Fv` | C72 |
| `Emf` | `bvals/fc/flux_correction_fc.cpp`, `bvals/fc/bvals_fc.cpp` (CountFineEdges), without poles, shearing boundaries and the copies in missing directions | C73 |
| `Mag` | `field/ct.cpp` and averages (models of `Fv`) on whole meshes with the EMFs of `Emf` | C74 |
| `Fgh` | `bvals/fc/bvals_fc.cpp` (messages, sizes), restriction of fields | C75 |
| `Reg` | `mesh/amr_loadbalance.cpp` (data moved, restricted and prolongated by an adaptive step, cell-centred variables) | C76 |
| `Arr` | `athena_arrays.hpp` | C28, C29 |
| `Par` | `parameter_input.cpp` | C30–C32 |
| `Rst` | `outputs/restart.cpp`, restart constructors of `mesh/mesh.cpp` and `mesh/meshblock.cpp` | C33, C34 |
| `Time` | `hydro/new_blockdt.cpp`, `mesh/mesh.cpp` (NewTimeStep), `main.cpp`, `outputs/outputs.cpp` (MakeOutputs), next-time functions of `parameter_input.cpp` | C35, C36 |
| `Ref` | `mesh/mesh_refinement.cpp` (restriction, prolongation, internal faces) | C37–C39 |
| `Fv` | `field/ct.cpp`, `field/calculate_corner_e.cpp` (copies, upwind weights), `hydro/add_flux_divergence.cpp`, `bvals/cc/flux_correction_cc.cpp`, averages | C40–C42, C63 |
| `Rec` | `reconstruct/` (dc, plm, ppm, weno; uniform, stretched and radial) | C43, C44 |
| `Rie`, `Pos` | `hydro/rsolvers/` (llf, hlle, hllc, lhllc, roe; llf_mhd, hlle_mhd, hlld), first-order stage | C45, C64, C65 |
| `Eos` | `eos/` adiabatic and isothermal, hydro and MHD, scalars, fourth-order conversions; `field/field.cpp` | C46, C61, C62 |
| `Bnd` | `bvals/cc/*`, `bvals/fc/*` physical boundaries, `bvals/bvals.cpp` (ApplyPhysicalBoundaries) | C47 |
| `Sts` | `task_list/sts_task_list.cpp`, `main.cpp` (super-time-stepping) | C48 |
| `Geo`, `Met` | `mesh/mesh.hpp` (generators), `mesh/mesh.cpp` (SetBlockSizeAndBoundaries), `coordinates/` (Cartesian, cylindrical, spherical-polar) | C49, C50, C66, C67 |
| `Mg` | `multigrid/`, `gravity/mg_gravity.cpp` on uniform meshes | C51, C68–C70 |
| `Ran`, `Interp` | `utils/ran2.cpp`, `utils/interp_table.cpp` | C52, C53 |
| `Qrt`, `Lud`, `Ang` | `utils/fourth_polynomial_root.cpp`, `utils/matrix_mult.cpp`, `utils/rotate_vectors.cpp`, `utils/permutation.cpp`, `nr_radiation/angulargrid.cpp` | C77, C78, C79 |
| `Dif`, `Tor`, `Vis`, `Res` | `scalars/scalar_diffusion.cpp`, `hydro/hydro_diffusion/*.cpp`, `field/field_diffusion/*.cpp` (no ambipolar diffusion in three dimensions, no Hall limit) | C80, C81, C82 |
| `Src` | `hydro/srcterms/*.cpp`, `orbital_advection/default_orbital_velocity.cpp` (no user source terms) | C83 |
| `Out` | `outputs/outputs.cpp` (slices, sums, Cartesian vectors), `outputs/history.cpp`, `orbital_advection/orbital_system_conversion.cpp` | C84 |
| `Gr` | `coordinates/minkowski.cpp`, `schwarzschild.cpp`, `kerr-schild.cpp` (metrics, frames, sources, volumes, areas) | C85 |
| `Chem` | `chemistry/forward_euler.cpp`, `network/H2.cpp`, `network/gow17.cpp`, `network/G14Sod.cpp` (integrator, ghost species, reaction tables) | C86 |
| `Char` | `reconstruct/characteristic.cpp`, `plm.cpp` and `ppm.cpp` with characteristic projection | C87 |
| `Cr` | `cr/cr.cpp`, `cr/integrators/`, cosmic-ray terms of `coordinates/` | C88 |
| `Nr` | `nr_radiation/integrators/rad_source.cpp`, `frame_transform.cpp`, `srcterms/absorption_scattering.cpp`, `nr_radiation/get_moments.cpp` | C89 |
| `Sr` | `eos/adiabatic_hydro_sr.cpp` | C90 |
| `Mf` | `nr_radiation/integrators/multi_group.cpp` | C91 |
| `Shb` | `bvals/bvals.cpp` (ComputeShear), `bvals/cc/bvals_shear_cc.cpp`, `bvals_shear_flux.cpp`, `hydro/bvals_shear_hydro.cpp` | C92 |
| `Shf` | `bvals/fc/bvals_shear_fc.cpp`, `bvals_shear_emf.cpp` | C93 |
| `Hli` | `hydro/rsolvers/mhd/hlld_iso.cpp` | C94 |
| `Lhd` | `hydro/rsolvers/mhd/lhlld.cpp` | C95 |
| `Srr` | `hydro/rsolvers/hydro/llf_rel.cpp`, `hlle_rel.cpp` (special relativity) | C96 |
| `Shc` | `hydro/rsolvers/hydro/hllc_rel.cpp` (special relativity) | C97 |
| `Orb` | `orbital_advection/`, `bvals/orbital/bvals_orbital.cpp` on one level | C54 |

## What is not modelled

Relativistic MHD, hydrodynamics in curved spacetime (the special-relativistic conversion of variables, the LLF, HLLE and HLLC solvers and the metrics are modelled, C85, C90, C96 and C97); general equations of state; the solver roe_mhd;
source terms, radiation, cosmic rays and chemistry beyond the files in the table (ray tracing, the transport of radiation in space and the reaction rates of large networks are not modelled); FFT gravity and turbulence driving;
multigrid on refined meshes (octets); the exchange of polar ghost zones; prolongation of field ghost zones on whole meshes and orbital messages between levels beyond what the table lists;
HDF5 and VTK file formats beyond C84; OpenMP inside a kernel; the MPI library; the C++ compiler and floating-point rounding (except as stated above).

## How each property is proved

| id | status | model and proof | theorems and assumptions |
|----|----|----|----|
| C01 Integrator task graphs are closed and acyclic | proved | The `AddTask` sequence as a function of a record of option flags; the finite set of combinations is evaluated in the kernel and lifted to all. All option combinations of the time integrator and of the other lists. Multigrid lists for one or two smoothing steps; the refuted theorems show that other smoothing counts give lists that cannot complete. | `Tasks_Props.v`: **none** time_integrator_lists, super_time_step_lists, gravity_chemistry_radiation_lists, multigrid_lists, multigrid_postsmooth_0_refuted, multigrid_postsmooth_3_refuted, multigrid_presmooth_3_refuted |
| C02 Every task of a stage runs exactly once and only after its dependencies | proved | `DoAllAvailableTasks` as a state machine with an oracle for task outcomes; invariant by induction over the trace. Any well-formed list, any number of scheduler calls, any outcomes. | `Tasks_Props.v`: **none** tasks_run_once_after_dependencies |
| C03 A stage always finishes when messages eventually arrive | proved | Some ready task exists while work is left (acyclicity); a fairness measure decreases. Fairness is stated in Tasks_Spec.fair; any number of blocks, any interleaving of scheduler calls. | `Tasks_Props.v`: **none** all_tasks_eventually_complete, stage_terminates, time_integrator_stage_terminates |
| C04 Boundary communication is closed only after all communication tasks are done | proved | Scan-order invariant and a sound boolean analysis of the graph, evaluated on all configurations. All 1024 configurations of the integrator and all super-time-stepping lists. | `Tasks_Props.v`: **none** clear_after_all_communication, clear_is_last, sts_clear_is_last |
| C05 Time integrators are consistent and of their documented order | partial | One step as a fold over the stages on abstract vectors; order conditions as ring identities over the exact decimal weights. All integrators and splittings except ssprk5_4 with second order orbital splitting, for which it is false (refuted). Beyond linear problems: Butcher order conditions for arbitrary right-hand sides. | `RK_Props.v`: **AF** runge_kutta_of_documented_order, rk4_fourth_order, steady_states_preserved, constant_rhs, constant_rhs_exact, linear_rhs, linear_rhs_exact, ssprk5_4_second_order_splitting_refuted |
| C06 The time attached to each stage is the time of the stage solution | partial | Abscissae as computed by the constructor against those of u'=1. True for vl2, rk1, rk2, rk3; false for rk4 and ssprk5_4 (refuted). | `RK_Props.v`: **AF** stage_times_partial, fourth_order_stage_times_refuted |
| C07 The root grid tiles the domain | proved | Inductive tree with a covering function; induction over depth. All grid sizes, 1 to 3 dimensions, any root level deep enough. | `Tree_Props.v`: **none** root_grid |
| C08 Every refinement history keeps the mesh a tiling | proved | Shape invariant of the recursive operations, induction over operation histories. All histories of requests, adaptive updates, renumberings and restarts, all boundary settings; that updates never fail needs no polar and no shearing boundary (adaptive refinement forbids both). | `Tree_Props.v`: **none** tiling, requests_succeed, updates_succeed, update_is_a_step |
| C09 Neighbouring MeshBlocks differ by at most one level | proved | 2:1 balance as an invariant of the recursive refinement. All histories without polar boundaries (C10). | `Tree_Props.v`: **none** balanced |
| C10 Polar boundaries keep the refinement balanced | partial | Polar branch as written; reachable witness. False: at the inner polar boundary Refine loses the azimuthal index, refuted by a reachable mesh. Missing: the positive statement for meshes with only an outer polar boundary. | `Tree_Props.v`: **none** inner_pole_refuted |
| C11 A refinement request is honoured and never coarsens | proved | Monotonicity of the covering level. All boundary settings for requests; adaptive flags without polar boundaries. | `Tree_Props.v`: **none** request_honoured, flagged_blocks_refined |
| C12 Derefinement merges only complete sibling groups and keeps balance | proved | The guard of Derefine implies balance. All histories without polar boundaries. | `Tree_Props.v`: **none** derefine, derefine_succeeds |
| C13 Global ids number the blocks consecutively in a fixed order | proved | The leaf enumeration as a sorted traversal. All histories. | `Tree_Props.v`: **none** block_list |
| C14 A restart rebuilds the same tree | proved | Re-insertion of the leaf list rebuilds the tree. All histories (including earlier restarts). | `Tree_Props.v`: **none** restart_tree |
| C15 Neighbour lookup returns the touching block | proved | `FindNeighbor` against the geometric notion of touching blocks. All histories and blocks, no polar or shearing boundary. | `Tree_Props.v`: **none** neighbour_lookup |
| C16 Neighbour relations are reciprocal: every boundary send has a matching receive | proved | Neighbour lists characterised geometrically; reciprocity of entries, buffer ids and sizes. All meshes reachable by static requests, adaptive steps and restarts, any distribution over ranks; polar and shearing boundaries excluded (AMR with either is refused by the code).  Messages: cell-centred variables and their flux correction. | `Nbr_Props.v`: **none** neighbours, directions, messages, flux_messages |
| C17 Refinement flags respect the level limits and derefinement delay | proved | State machine of the refinement flags. All sequences of checks; the finer-neighbour test is characterised over the block list, and the maximum level holds after every update. | `Nbr_Props.v`: **none** decisions, finer_neighbour, levels_bounded |
| C18 AMR remapping between old and new block ids is consistent | proved | The two index maps as folds; invariants relating old and new leaf lists. C18_steps_are_redistributions shows that every adaptive step of the tree followed by a load balance meets the hypothesis of the other four. | `AMR_Props.v`, `Tree_Props.v`: **none** steps_are_redistributions, new_to_old, old_to_new, old_to_new_monotone, inverse_on_unchanged |
| C19 One AMR step changes a region by at most one level and only by request | proved | Levels before and after one update. All histories and flags, no polar boundary. | `Tree_Props.v`: **none** one_level |
| C20 Load balancing assigns every block to exactly one rank contiguously | partial | Greedy assignment over an abstract arithmetic. The partition is proved for every arithmetic (including IEEE doubles) whenever a balance is returned. That one is always returned is proved in exact arithmetic for positive costs, and refuted for zero costs and for rounded positive costs. | `LB_Props.v`: **none** blocks_partitioned, no_fatal_error_partial, zero_costs_refuted, rounding_refuted |
| C21 Load balancing bounds the load of each rank | proved | Sums of exact costs. Exact rational arithmetic. | `LB_Props.v`: **none** load_bound, equal_costs |
| C22 AMR messages between two ranks have distinct tags | proved | Bit fields on `N`. All messages received by a rank in one redistribution, block transfers and face field corrections. Unbounded tags: the range is the subject of C23. | `AMR_Props.v`: **none** tags_distinct |
| C23 Boundary messages have distinct tags | partial | Bit fields on `N`, physics ids as a fold over the options. Tags are injective in (block, slot, physics id). Physics ids are distinct and fit five bits except in the refuted configurations; polar electromotive-force messages collide with more than 64 blocks around a pole. | `Tags_Props.v`: **none** tags_injective, tag_range, guaranteed_range_refuted, physics_ids_partial, implicit_radiation_refuted, restarted_six_ray_refuted, all_physics_refuted, polar_slots_refuted |
| C24 Buffer slots enumerate the neighbour directions without collision | proved | Enumeration of all cases in the kernel. All dimensions, with and without refinement. | `Tags_Props.v`: **none** slots_enumerate_directions, lookup_returns_own_slot, slots_fit_tags |
| C25 Packing then unpacking a region is the identity on it and touches nothing else | proved | Nested loops over an abstract store, induction over the ranges. For every array, range (possibly empty), offset and displacement between packed and unpacked region: number of elements, untouched rest of the buffer and array, contents. | `Buf_Props.v`: **none** pack_unpack_3d, pack_unpack_4d, pack_unpack_5d |
| C26 AMR transfer buffers have the size that is packed and unpacked | proved | Sizes against loop ranges, contents by C25. Sizes, memory safety and contents of the three kinds of message that move a block, for all block sizes, ghost widths, variable lists, dimensions and child positions; the same-rank copies give the same arrays. Refuted part: sizes are left unset on static meshes although load balancing of static meshes uses them. | `Buf_Props.v`: **none** accesses_inside, same_level, fine_to_coarse, children_cover, coarse_to_fine, static_balancing_refuted |
| C27 Ghost zones are filled from the cells that are there | proved | Every message of a block characterised by the cells it carries; reciprocity from C16; every unpacking writes the right value, and the written regions cover the ghost zones. Cell-centred variables, all tree histories without poles and shearing boundaries, any restriction operator. On refined meshes for blocks of at least 2*NGHOST cells; smaller blocks that the code accepts refute it. | `Gho_Props.v`: **none** exchange, complete, message_sizes, accepted_sizes, small_blocks_refuted |
| C28 Array indexing is a bijection onto the allocated storage | proved | Row-major offsets, division with remainder. Element access is a bijection from in-range index tuples to storage, last index fastest, for every extent; slices and pencils alias exactly the shifted elements. C++ int overflow is not modelled. | `Arr_Props.v`: **none** indexing, fewer_indices, slices, pencils |
| C29 Arrays own their storage exactly once through any sequence of operations | proved | Heap with ownership; invariant over operation sequences. For every sequence of operations used as documented (spec: proper) no undefined behaviour occurs, every live block has exactly one owner and nothing leaks. The refuted theorems show the documented restrictions are necessary: copying or moving from an empty array, assigning to a slice, swapping a slice and reallocating break it. | `Arr_Props.v`: **none** ownership, slice_usable, copy_of_empty_refuted, move_of_empty_refuted, assign_to_slice_refuted, swap_slice_refuted, reallocation_leaks_refuted |
| C30 Input parameters survive dump and reload | proved | Character-level printer and parser, inverse by induction over the text. All stores whose texts can be written (spec: writable), and all stores reached by histories of writable assignments; contents, order and comments. Refuted outside that class: a command line value with # is cut on restart. | `Par_Props.v`: **none** dump_reload, run_reload, hash_value_refuted |
| C31 Setting a parameter affects exactly that parameter | proved | Association-list semantics of the parameter store. All histories of file loads (documented format), assignments, queries with default and command line arguments. Real-valued parameters are covered as strings only. Findings: indented headers and lines without = are misread silently. | `Par_Props.v`: **none** load, history, no_duplicates, set_get, get_or_add, exists, integers, booleans, indented_header_refuted, no_equal_sign_refuted |
| C32 Command line overrides change only existing parameters | proved | Character-level argument splitter. All argument texts; the one class not behaving as documented (= before /) is isolated and refuted. | `Par_Props.v`: **none** assignment, other, all_arguments, no_new_parameters, path_argument_refuted |
| C33 Restart file regions are disjoint and read back what was written | proved | Byte layout, disjoint writes commute. All rank partitions of writer and reader, all orders of the writes, all header contents that can be written, all block counts and sizes; double precision. MPI-IO is modelled as byte writes at offsets. Refuted: headers longer than 45057 bytes cannot be read back; single precision restarts parse beyond the buffer. | `Par_Props.v`, `Rst_Props.v`: **none** regions, restart, header, long_header_refuted, single_precision_refuted |
| C34 Restart block records round trip for every physics combination | proved | Record codec by configuration. All configurations and array sizes; restart_from_gray conversion itself is not modelled, and its size check is refuted with chemistry. | `Rst_Props.v`: **none** record, gray_chemistry_refuted |
| C35 Time step control never oversteps and ends exactly at the time limit | proved | Invariant of the main loop over reals. All meshes, rank distributions and histories, exact arithmetic; signal speeds are positive inputs. | `Time_Props.v`: **AF** step, other_limits, largest, distribution, history, ends_exactly |
| C36 Output scheduling writes each dump once and in order | proved | Scheduler state machine. All sequences of calls, exact arithmetic. Promptness needs steps not longer than the interval (refuted otherwise). Further findings: schedule shifts at restart. | `Time_Props.v`: **AF** counting, prompt, cycles, restart, restart_new_interval, new_output, long_step_refuted, restart_far_refuted, extended_run_refuted, fresh_flag_refuted, cycle_restart_refuted, final_twice_refuted |
| C37 Restriction conserves the cell integrals | proved | Weighted sums over the covered fine cells. All dimensions, ranges, volumes and areas, exact arithmetic. Faces on a pole have no area, so nothing is lost there; refuted: the value the code gives them depends on stale contents of a work array. | `Ref_Props.v`: **AF** cells, x1_faces, x2_faces, x3_faces, rest, pole_refuted |
| C38 Prolongation is conservative, bounded and exact on linear data | proved | Slopes and sums per coarse cell. All dimensions and ranges, exact arithmetic. C38_all_coordinates discharges the conditions on volumes and centres for Cartesian, cylindrical and spherical-polar grids; bounds need fine centres within a third of the spacing (C38_uniform for uniform grids). | `Met_Props.v`, `Ref_Props.v`: **AF** mean, inverse, bounded, linear, rest, uniform; **AFN** all_coordinates |
| C39 Prolonged magnetic fields are divergence free | proved | Fluxes through the internal faces of a coarse cell. All dimensions and ranges, exact arithmetic; Cartesian, cylindrical and spherical-polar instances without side conditions. | `Met_Props.v`, `Ref_Props.v`: **AF** x1_faces, x2_faces, x3_faces, inner_faces, equal_shares, prolongation, cartesian; **AFN** all_coordinates |
| C40 Constrained transport preserves the divergence of B in every cell | proved | Curl of edge fields telescopes per cell; invariant over update sequences. Exact arithmetic; any geometry with non-zero face areas (zero on poles), 1D-3D, any sequence of updates, averages, copies and RKL2 registers; the condition is discharged for the three coordinate systems off the axis. Shared-face equality is proved for x1 faces. Finding: WeightedAve mixes components in one branch of the weights. | `Fv_Props.v`, `Met_Props.v`: **AF** cell_flux, two_dimensions, three_dimensions, history, shared_face, average_refuted; **A** copied_fields; **AFN** all_coordinates |
| C41 The flux-divergence update conserves totals | proved | Telescoping sums over blocks. Exact arithmetic, any geometry, any number of blocks; the matching of patch flows is a hypothesis, which C42 discharges at level jumps. | `Fv_Props.v`: **AF** block, ghosts, mesh, closed_mesh, average, register |
| C42 Flux correction makes coarse and fine fluxes agree | proved | Loops of loading and setting, sum over fine faces. All sides, dimensions, sizes and orders of arrival, exact arithmetic. Cell-centred variables; the edge-field corrections of flux_correction_fc.cpp are not modelled. | `Fv_Props.v`: **AF** faces, flow, parts, all_neighbours |
| C43 Piecewise-linear reconstruction is monotone and exact on linear data | proved | Case analysis of the limiters. Exact arithmetic, all data. Bounds with the van Leer limiter on stretched meshes need neighbours that are not much smaller (refuted otherwise). Characteristic projection is not included. Passive scalars beyond NWAVE with minmod use stale slopes (refuted). | `Rec_Props.v`: **AF** bounded_uniform, bounded_stretched, bounded_stretched_refuted, constant, linear, mirror, any_variable, minmod_scalars_refuted |
| C44 Parabolic reconstruction preserves constants and respects monotone bounds | proved | Case analysis of the limiters, weights as rational identities. Exact arithmetic, all data, both limiters, also stretched and radial directions and the WENO methods. Radial weights fit only a block that starts at the axis (refuted elsewhere). Weights obtained by solving linear systems are arbitrary in the bounds theorem. Characteristic projection is not included. | `Rec_Props.v`: **AF** bounded_uniform, bounded_stretched, bounded_radial, constant, linear_uniform, linear_stretched, mirror_uniform, mirror_stretched, cubic_uniform, cubic_radial, radial_offset_refuted, weno_quadratic, weno_mirror |
| C45 Riemann solvers are consistent and upwind | proved | Algebra of the flux functions and of the wave fans. LLF, HLLE, HLLC, LHLLC, Roe and, with magnetic fields, LLF, HLLE, HLLD: consistency, mirror symmetry, upwinding, wave structure. Upwinding of LLF, of Roe when its density check fires and exact upwinding of HLLC are refuted. Not modelled: relativistic solvers, general EOS, roe_mhd, hlld_iso, lhlld. | `Rie_Props.v`: **AFN** llf_consistent, hlle_consistent, hllc_consistent, lhllc_consistent, roe_consistent, llf_mhd_consistent, hlle_mhd_consistent, hlld_consistent, llf_mirror, hlle_mirror, hllc_mirror, lhllc_mirror, roe_mirror, llf_mhd_mirror, hlle_mhd_mirror, hlld_mirror, hlle_upwind, hlle_mhd_upwind, hlld_upwind, roe_upwind_partial, hllc_upwind_partial, llf_upwind_refuted, roe_supersonic_refuted, hllc_exact_upwind_refuted, hllc_contact, hlle_isothermal_supersonic, hlle_speeds, outer_speeds, hllc_star, lhllc_is_hllc, roe_waves, hlld_fan, hlld_contact_between; **AF** directions |
| C46 Equation of state conversions invert each other and enforce floors | proved | Field identities and floors. Exact arithmetic, every state. The fourth-order conversion breaks parts of the claim: floors separate the two sets of variables, change the mass of valid cells, and for scalars act on another cell (all refuted with witnesses). Relativistic and tabulated equations of state are not modelled. | `Eos_Props.v`: **AF** round_trip, round_trip_mhd, round_trip_isothermal, round_trip_scalar, floors, floors_mhd, floors_isothermal, floors_scalar, valid_unchanged, twice, least_change, face_states, scalar_face_states, cell_average, cell_average_uniform, cell_average_mass, cell_average_advected, cell_average_valid_refuted, conserved_floors_refuted, scalar_average_floor_refuted |
| C47 Physical boundary functions fill the ghost zones correctly | proved | The assignments in execution order; a ghost entry is written last by the right one. All block sizes, ghost widths (at most the block size), dimensions and combinations of reflecting, outflow, polar-wedge and communicated boundaries; hydro, scalars, face field, cell-centred field and conserved variables. User-enrolled functions are not modelled. | `Bnd_Props.v`: **A** completes; **AF** cells, faces, active_unchanged, active_faces_unchanged, communicated_kept, ghost_consistent, reflect_divergence, reflect_open_wall_refuted, outflow_divergence_refuted; **AFN** wall_closed |
| C48 Super-time-stepping advances by exactly the requested step | proved | Stage recurrences solved by Legendre polynomials. All stage counts, right-hand sides and register contents; stability and order for linear right-hand sides. Exact arithmetic; the diffusive flux functions themselves are a parameter. | `Sts_Props.v`: **AF** is_rkl, steady, constant, conserved, order; **AFN** stage_count, cycle, stable |
| C49 Block geometry tiles the domain without gaps | proved | Face positions as functions of global indices; equal expressions give equal floats. Any rounding function that keeps integers up to twice the number of cells exact, any generator, all levels and positions. Monotonicity is proved in exact arithmetic. | `Geo_Props.v`: **AF** shared_faces, adjacent_blocks, child_limits, domain_ends, ghost_faces, coarse_faces, increasing, widths, mirrored_ghosts; **AFKN** generators, ratio |
| C50 Cell geometry is positive and additive | proved | Integrals of scale factors. Cartesian, cylindrical, spherical-polar; exact arithmetic. Volumes, areas and lengths are the integrals of the scale factors. Finding: a radial face at r = 0 is accepted and has no area. | `Met_Props.v`: **AFN** volume, areas, lengths, signs, block, refined, axis_refuted; **AFKN** centres |
| C51 Multigrid transfer operators preserve constants and integrals | proved | Sums over cells. Exact arithmetic, uniform meshes (no octets of refined meshes). Findings: absolute tolerance of the cubic-cell check; average subtracted on the wrong level of the root grid. | `Mg_Props.v`: **AF** levels, restriction, prolongation_exact, prolongation_bounded, compatible, cubic_check_refuted, coarsest_average_refuted; **AFN** defect |
| C52 The random number generator is reproducible and in range | proved | Euclidean bounds of the two generators. Seeds of absolute value below 2147483563, any number of calls, any earlier state. Exact quotient instead of the rounded product. Findings: larger seeds read outside the table; seeds 0 and -1 coincide. | `Ran_Props.v`: **none** range, reproducible, combined_generators, seed_zero_refuted, large_seed_refuted |
| C53 Table interpolation is exact at nodes and bounded | proved | Bilinear weights. All table sizes with at least two nodes in each direction, exact arithmetic. | `Interp_Props.v`: **AF** bounded, nodes, bilinear, single_node_refuted |
| C54 Orbital advection is an exact, conservative, bounded displacement around the ring | proved | Overlap sums of displaced cells; ring of blocks with its messages. Exact arithmetic, uniform azimuthal spacing, ring of blocks on one level (orbital buffers between levels not modelled), any number of blocks, rows and offsets, both message orders, PLM and PPM. Finding: in cylindrical coordinates the x3 field is not rotated exactly by a whole-cell displacement. | `Orb_Props.v`: **AF** displaced, conserved, rotation, constant, bounded, step_limit; **AFN** field, field_cylindrical_refuted |
| C55 Primitive variables are computed from fully updated conserved variables | partial | Graph analysis of the task lists. False for explicit radiation in a shearing box without mesh refinement and orbital advection (refuted by a schedule); proved for all other configurations. | `Tasks_Props.v`: **none** primitives_after_all_updates_partial, shearing_radiation_refuted |
| C56 Explicit source terms are integrated with the same weights as the fluxes | partial | Weights of the registers. Time-independent sources, all integrators except ssprk5_4, for which it is false (refuted). | `RK_Props.v`: **AF** sources_integrated_like_fluxes_partial, ssprk5_4_sources_refuted |
| C57 Operator-split orbital advection covers exactly one step | partial | Weights of the registers; for the fourth order integrators interval bounds on exact decimals. Exactly for vl2, rk1, rk2, rk3, up to the accuracy of the coefficients for rk4 with both splittings and ssprk5_4 with first order splitting. False for ssprk5_4 with second order splitting (refuted). | `RK_Props.v`: **AF** orbital_advection_covers_the_step_partial, fourth_order_integrators, ssprk5_4_second_order_splitting_refuted |
| C58 The weighted average of registers computes the weighted sum | proved | Element-wise evaluation. Element-wise; exact arithmetic. | `RK_Props.v`: **AF** weighted_average |
| C59 Every block redistribution message has exactly one matching receive | proved | Pairs of sends and receives from C18. All redistributions. | `AMR_Props.v`: **none** sends_match_receives, between_ranks, messages_are_overlaps, message_kinds |
| C60 Block counts reported by a mesh update are exact | proved | Counting leaves.  | `Tree_Props.v`: **none** block_count, group_array_fits |
| C61 Fast magnetosonic speed | proved | Real algebra. Adiabatic and isothermal, exact arithmetic. | `Eos_Props.v`: **AFN** fast_speed, no_nan, no_field |
| C62 Cell-centred magnetic field | proved | Convexity. Any face positions and volume centre in the cell. | `Eos_Props.v`: **AF** cell_centered_field |
| C63 Upwind weight of constrained transport | proved | Bounds of the weight. Exact arithmetic. | `Eos_Props.v`: **AF** upwind_weight |
| C64 First-order update keeps density and pressure positive | proved | Convex combination of the update. Single forward Euler stage, donor cell, uniform Cartesian. The Courant limit 1.0 accepted by rk1, rk2, rk3 in 2-D is refuted. | `Pos_Props.v`: **AFN** positive, code_time_step, hlle_positive, full_courant_2d_refuted |
| C65 Passive scalar concentrations stay within their bounds | proved | Convex combination of the update. Same scheme. | `Pos_Props.v`: **AFN** scalar_bounds, uniform |
| C66 A fluid at rest with uniform pressure stays at rest in curvilinear coordinates | proved | Cancellation of pressure differences and source terms. Exact arithmetic; no viscosity. | `Met_Props.v`: **AFN** fluid_at_rest |
| C67 Angular momentum is advanced by fluxes alone | proved | Source term coefficients against lever arms. Exact arithmetic; any fluxes. | `Met_Props.v`: **AFN** pure_divergence, block |
| C68 The multigrid solver leaves the exact solution alone, and there is only one | proved | Maximum principle for uniqueness; fixed point by induction over levels. Exact arithmetic, uniform meshes, one variable. The fixed point needs homogeneous boundaries on coarse levels without FAS and a start above the coarsest level; both exceptions are findings with witnesses. | `Mg_Props.v`: **AF** unique, fixed_point, prescribed_potential_refuted, coarsest_start_refuted |
| C69 A smoothing sweep does not depend on the order of its cells | proved | Colouring: updated cells do not read each other. Exact arithmetic. | `Mg_Props.v`: **AF** any_order, colours, defect_reduction, stable |
| C70 The multigrid iteration always ends and reports convergence truthfully | proved | Measure of the iteration. Exact arithmetic (a NaN norm would end the loop silently). | `Mg_Props.v`: **AF** iteration_ends; **AFN** converged |
| C71 Ghost zones next to coarser blocks are interpolated from current values only | proved | Every cell read by the slopes is written by a message, a restriction or a boundary function of the same exchange. Cell-centred variables (the whole hydrodynamic state of a cell as one value), any local restriction, prolongation, boundary functions and equation of state, NGHOST = 2, physical and periodic boundaries. With NGHOST = 4 it is refuted: the second coarse layer of neighbours of the same level is never restricted. | `Pro_Props.v`: **none** prolongation, proper_unique, no_stale_values, four_ghost_cells_refuted |
| C72 A step conserves exactly on every refined mesh | proved | Neighbour lists from C16 pair the flows of all faces of all blocks; flux correction replaces coarse flows by finer ones; the rest telescopes. Exact arithmetic, all tree histories without poles and shearing boundaries, any geometry whose face areas match (proved for uniform Cartesian meshes), one conserved variable (the loops treat each one alike). | `Con_Props.v`: **AF** conservation, periodic, send_any_time, uniform_geometry; **none** after_exchange |
| C73 Blocks agree on the electromotive force of every edge they share | proved | The sums an edge receives, term by term, are the computed values of all blocks touching it; the divisors count them. Exact arithmetic, all tree histories without poles and shearing boundaries, one, two and three dimensions; edge lengths only have to be positive and agree between blocks of a level. | `Emf_Props.v`: **AF** corrected_emfs, any_order, uniform_lengths |
| C74 Refined meshes keep the magnetic field divergence-free and consistent between blocks | proved | The circulation around a coarse face telescopes over the circulations around its parts; invariant over runs of the integrator. Exact arithmetic, all tree histories without poles and shearing boundaries; any geometry whose lengths and areas match between blocks (proved for uniform Cartesian meshes). Averages outside the weights of finding C40_average_refuted. Prolongation of the field is C39. | `Mag_Props.v`: **AF** update, step, average, history, uniform_geometry |
| C75 Ghost zones of the magnetic field hold what the neighbours hold and carry no magnetic charge | proved | Each range is all faces of a box of cells, without the plane of the block for face neighbours; any two writes of a face carry the same value. Restricted fluxes telescope over the fine cells. All tree histories without poles and shearing boundaries, one, two and three dimensions. Fields have to agree on shared faces, which C74 keeps; charges in exact arithmetic. | `Fgh_Props.v`: **none** exchange, message_sizes; **AF** fields_consistent, uncharged, uniform_geometry, after_run |
| C76 Refining and derefining the mesh neither creates nor loses anything | proved | Every cell of the new blocks traced to a move, a restriction or a prolongation; child sums telescope over the parents; runs by induction with C72. Exact arithmetic. Cell-centred variables; face fields through a refinement step are not covered. Steps are those C18 derives from the tree; that each message reaches the block it is meant for is C59. Volumes and positions only have to match between parent and child (proved for uniform Cartesian meshes). | `Reg_Props.v`: **AF** conservation, unchanged, ranks, bounded, uniform, run |
| C77 The temperature equation is solved exactly | proved | Resolvent cubic and quadratic factor checked algebraically; cube roots by their defining property; existence by the intermediate value theorem. Exact arithmetic. | `Qrt_Props.v`: **AFKN** root, large, failure |
| C78 Linear systems are solved, matrices inverted and vectors rotated | proved | Invariant of Crout's method: the finished columns of the permuted matrix are the product of the factors. A vanishing pivot would give a kernel vector. Exact arithmetic; any size. Singular matrices without a row of zeros are outside the claim (the code replaces the pivot by 1e-20). | `Lud_Props.v`: **AF** solves, inverse, singular; **A** product; **AFN** rotation |
| C79 Angular grids integrate isotropic radiation exactly | proved | Weights satisfy the linear system by C78; sums over octants cancel by symmetry; families of two to six levels by linear arithmetic; trigonometric sums telescope. Exact arithmetic, Cartesian coordinates. One-dimensional Gauss-Legendre angles, angle_flag 10 and polar angles are not covered. The property fails for one and seven levels and for odd products of the numbers of angles (refuted). | `Ang_Props.v`: **AFN** octants, quadrants, unit, psi, levels_refuted, psi_refuted |
| C80 Diffusion makes no new extrema | proved | The new value is a convex combination of the old ones under the step limit. Exact arithmetic, one stage, fluid at rest. The limits of the code alone do not suffice (two refuted theorems). | `Dif_Props.v`: **AF** downhill_scalar, downhill_heat, scalar, scalar_uniform, heat, contrast_refuted, gamma_refuted |
| C81 Viscosity is Newtonian and dissipates | proved | Field identities face by face; dissipation by summation by parts on a torus and completing squares. Exact arithmetic; dissipation at the rate level (no time step). The symmetry of the stress fails in spherical polar coordinates and dissipation fails with varying density (refuted). | `Vis_Props.v`: **AF** linear, rigid, rotation_cylindrical, rotation_spherical, dissipates, energy, azimuth_refuted, heating_refuted |
| C82 Resistivity removes magnetic energy | proved | Energy identity by summation by parts; the norm of the curl is bounded by the norms of the differences, since mixed differences of two components can be exchanged. Exact arithmetic, uniform Cartesian mesh in one periodic block. Ambipolar diffusion and Joule heating in one dimension; in two dimensions ambipolar diffusion can make magnetic energy (refuted), three dimensions are not modelled. | `Res_Props.v`: **AF** current, current_in_plane, ohmic, decay, ambipolar, joule, ambipolar_refuted |
| C83 Source terms do the work of their forces | proved | Field identities cell by cell; the potential energy telescopes; a second difference is symmetric and a central difference antisymmetric on a torus; derivatives by the chain rule. Exact arithmetic, one stage; work is compared where the mass fluxes at the faces are those of the cell. The property fails for orbital advection with a user velocity that varies along x3 and a magnetic field, for the default flow in three-dimensional cylindrical coordinates and for the vertical derivative of that flow (refuted). | `Src_Props.v`: **AFN** untouched, work_cartesian, work_curvilinear, work_orbital, maxwell_refuted, vertical_twice, vertical_refuted, rotating_frame, orbital_frame, shear_equilibrium, orbital_derivatives, vertical_derivative_refuted; **AF** potential_energy, total_energy, tidal_energy, no_self_force, switches |
| C84 Outputs report what is in the mesh | proved | The search loop by induction; 27 combinations of slice, sum and keep; the columns as consecutive sections, so that a label and the writes to its column share an index; sums over lists commute with the distribution over ranks. Exact arithmetic. The layout of the history columns is wrong for two or three frequency groups with cosmic rays or user columns, and for chemistry radiation with cosmic rays (two refuted theorems); C84_history excludes these configurations. Formatting of numbers and the file formats of other outputs are not modelled. | `Out_Props.v`: **AF** converted_velocity, selects, transform, cell_unique, one_block, sums, requests, orbital_system, converted, history, history_user, history_conserved, history_gap_refuted, history_clash_refuted; **AFN** lengths, spherical_directions, cylindrical_directions, meridional, linear; **none** history_length |
| C85 Relativistic runs see the spacetime they asked for | proved | Tensor identities component by component with field; square roots by their defining squares; derivatives by the chain rule after writing every entry as a rational function of the radius or of the squared sine. Exact arithmetic. The property fails at polar faces in Schwarzschild coordinates (the transformation into the frame divides by the radius where it should multiply) and at the outermost polar ghost face in Kerr-Schild coordinates (refuted theorems). gr_user.cpp (numerical derivatives) and the line lengths used in the electromotive forces are not modelled. | `Gr_Props.v`: **AFN** schwarzschild_metric, kerr_metric, kerr_outer_face_refuted, indices, kerr_frames, schwarzschild_frames, schwarzschild_theta_refuted, schwarzschild_theta_scaled, hydro, schwarzschild_sources, kerr_sources, kerr_volume, schwarzschild_volume; **AF** minkowski_metric |
| C86 Chemistry conserves nuclei and covers the step exactly | proved | Substeps by induction on the fuel; linear invariants along the explicit path; each loop over reactions is a sum, compared row by row with the documented reactions; positivity because a reaction that consumes a species has it as a reactant. The integrator for any network; H2, gow17 and G14Sod tables for any rate coefficients. The floor creates nuclei when a rare species is driven below zero (C86_H2_floor_refuted); gow17 reaction cr+CO makes a hydrogen nucleus (C86_gow_hydrogen_refuted); four rows of the G14Sod tables do not conserve hydrogen (C86_sod_hydrogen_refuted) and one rate has a typing error (C86_sod_rate_refuted). CVODE and the temperature dependence of the other rates are not modelled. | `Chem_Props.v`: **AF** integrate, conserved, floor_adds, gentle, completes, H2, H2_step, H2_floor_refuted, gow_elements, gow_reactions, gow_positive, gow_hydrogen_refuted, sod_charge, sod_helium, sod_reactions, sod_hydrogen, sod_hydrogen_refuted; **none** gow_balanced; **AFKN** sod_rate_refuted |
| C87 Characteristic projection is invertible and belongs to the equations | proved | The speeds and weights satisfy seven polynomial relations; with them every row of the products is the identity or an eigenvector row, coefficient by coefficient; uniform and linear data reduce to C43 and C44. Exact arithmetic. Where the transverse field vanishes the property fails: the two functions choose different directions for it, so that 3c brings transverse motion to rest at the faces and 2c drops its slope (refuted theorems). Floors applied after the reconstruction are not modelled here. | `Char_Props.v`: **AFN** roundtrip, others_kept, waves, no_transverse_field, roundtrip_refuted, plm_linear, plm_flat_refuted, ppm_uniform, ppm_sideways_refuted; **AF** speeds_unique |
| C88 Cosmic rays exchange energy and momentum with the gas consistently | proved | Elimination is equivalent to the linear system because the pivot is positive below the limiting speed; rotations are isometries of the frame of the field; fluxes reduce to the two-speed formula; the geometric sources are the differences of the face areas per volume. Exact arithmetic, default opacity and streaming functions. Reconstruction of the face states and user-defined source terms are not modelled. Four parts of the property fail in the code and are stated as refuted theorems. | `Cr_Props.v`: **AF** implicit, momentum, energy, passive, equilibrium, energy_gas_refuted, energy_rays_refuted, perpendicular_work; **AFN** angles, no_streaming_refuted, streaming, flux, flux_consistent, flux_upwind, flux_mirror, diffusion_speed_refuted, uniform, gradient, no_gradient, spherical_gradient_refuted; **AFKN** diffusion_speed |
| C89 Gas and radiation exchange energy and momentum consistently | proved | The transfer equations are linear given the temperature, which makes the mean intensity a rational function of its fourth power; the remaining quartic is the one of C77; sums over directions by induction; boosts by field identities with the Lorentz factor. One frequency group for the source step, any number for moments and the exchange with the gas. Compton scattering and the mapping between frequency groups are not modelled. Refuted: conservation when the intensity floor acts (absorption mean above the total mean opacity) and when the speed limit acts. | `Nr_Props.v`: **AF** frames, isotropic; **AFN** aberration, conservation, limits, speed_refuted, moments; **AFKN** transfer, unique, energy, static, equilibrium, floor_refuted |
| C90 Relativistic gas is converted between conserved and primitive variables consistently | proved | The pressure map increases with slope between (gamma-1)/gamma and 1 on admissible states, which gives uniqueness and, with a case analysis of the clipped and accelerated steps, the residual of every accepted pressure; the rest is algebra with the Lorentz factor. Exact arithmetic, hydrodynamics only. Convergence within fifteen iterations is not proved. Refuted: gas above the floors keeps its density (a pressure up to 1e-12 cannot be recovered and the cell is emptied, the saved previous state is not used); gas below the pressure floor is raised to the floor (twice the floor at rest). | `Sr_Props.v`: **AFN** conserved, unique, round_trip, accuracy, settled, sound_speeds, sound_addition, cold_refuted, floor_refuted |
| C91 The Doppler shift of radiation between frequency groups conserves it and can be undone | proved | The entries of a row telescope as differences of the cumulative linear spectrum, which gives shares and conservation; the searches are shown to bracket the edges; the inverse is a triangular solve proved sound and complete by induction on the groups. Exact arithmetic. The fit of the integrated Planck function is a parameter, assumed monotone only for non-negativity. The inverse mapping is covered for shifts of at least 1. Refuted: a shift over too many groups is always reported (the last group is not tested and its row overruns); the test of the diagonal reads its own row. | `Mf_Props.v`: **AF** conserved, nonneg, shares, shares_back, faces, still, still_back, inverse, recovered, overflow_refuted, diagonal_refuted |
| C92 Shearing-box boundaries connect the gas of both sides at the sheared positions and conserve it | proved | Interval arithmetic on the send and receive ranges shows that the slots match pairwise and cover the array; each slot writes the same periodic line, and the remap flux is the difference of the cumulative profile used for C54. Exact arithmetic, cell-centred variables; the periodic values and the fluxes of the opposite side that enter the exchange are taken as given, magnetic fields are C93, radiation is not covered. Refuted: the sign of the shear does not matter (a rotation in the other direction is accepted but extrapolates upstream). | `Shb_Props.v`: **AF** ghosts, fluxes, conserved, whole, bounded, velocity, negative_refuted |
| C93 Magnetic fields cross shearing-box boundaries without divergence | proved | The slot argument of C92 with one face more per slot: overlapping slots write the same periodic line because the blocks share faces; the divergence vanishes by algebra, the totals as for C92. Exact arithmetic. The halving of electromotive forces received twice at block edges happens before and is not modelled; the values that enter the exchange are taken as given. The third field component and the second electromotive force are lines of cells and covered by C92. | `Shf_Props.v`: **AF** faces, emf, shared, conserved, divergence |
| C94 The isothermal MHD solver returns the flux of an exact set of waves | proved | Field arithmetic: the mass jump gives the velocity of the fan strictly between the outer speeds, so that the divisors do not vanish; the jump conditions are then rational identities. Exact arithmetic. The jump conditions are proved outside the degenerate case of the code (an Alfven wave within 1e-4 sound speeds of the fast wave) and when the density floor is not applied. Mirror symmetry for a non-zero normal field. Refuted: the four waves are ordered (behind a density jump the Alfven wave can be faster than the fast wave). | `Hli_Props.v`: **AFN** consistent, upwind, fan, alfven, mirror, order_refuted |
| C95 The low-dissipation MHD solver keeps the guarantees of HLLD | proved | The middle speed is a convex combination of that of HLLD and a mean velocity; the flux is written as a function of the speeds and the pressure, shared with HLLD, whose lemmas on starred states apply. Exact arithmetic, adiabatic gas. Mirror symmetry for a middle wave that is not at rest. Refuted: the low-dissipation pressure is the pressure of the momentum flux (it enters the energy only; C95_momentum gives the pressure that is used, C95_jump its jump across the middle wave where the detector acts). | `Lhd_Props.v`: **AFN** positive, flow_speed, contact, consistent, upwind, full, mirror, momentum, jump, pressure_refuted |
| C96 Relativistic Riemann solvers keep the gas admissible | proved | The excess of speed times densities over flux lies in a convex cone beyond the sound wave (a quadratic inequality in the speed and a bound on the enthalpy); the state of the fan and the updated cell are sums of elements of the cone. Exact arithmetic, special relativity (the frame transformations of general relativity around the same code are not part of this property). | `Srr_Gas.v`, `Srr_Props.v`: **AFN** speeds, consistent, upwind, mirror, fan, step, admissible, step_gas |
| C97 Relativistic HLLC resolves the contact | proved | The quadratic for the contact speed is positive at the left wave and negative at the right one, and of opposite sign at the two speeds of light, so it has one root between; the jump conditions follow from the root equation. A contact satisfies the root equation with the common velocity. Exact arithmetic, special relativity. An averaged energy flux below TINY_NUMBER (1e-20) but not zero is excluded: there the code uses the linear formula, which is not exact (F97). | `Shc_Mirror.v`, `Shc_Props.v`, `Shc_Push.v`, `Shc_Tiny.v`: **AFN** fan, upwind, contact, consistent, mirror, push, threshold_refuted, pull_refuted |


Assumption classes in the last column (what `Print Assumptions` prints for each theorem; regenerated from the built theories):
`none` – closed under the global context; `A` – `ClassicalDedekindReals.sig_forall_dec`; `F` – `FunctionalExtensionality.functional_extensionality_dep`;
`N` – `ClassicalDedekindReals.sig_not_dec`; `K` – `Classical_Prop.classic`. All four belong to the standard library (they are what its real numbers are built on).

## Trusted base

* Coq 8.16.1's kernel (including its `vm_compute`), and `coqchk`, which re-checks the compiled files.
* The axioms listed above, and no others. No axioms, parameters, section-less variables, admitted proofs, functors, plugins or disabled checks are used; no library besides Coq's standard library is imported.
* The reading of the C++ code into the models (each definition names its lines), and the specifications in the `_Spec.v` files.

## Findings

Behaviour of the code that contradicts a property one would expect; where a theorem is named it proves the statement from the model.

Mesh and communication
* F1 `Refine` at an inner polar x2 boundary loses the azimuthal index, so blocks across the pole may differ by two levels (`C10_inner_pole_refuted`). F2 `Derefine` and `FindNeighbor` across a pole share the confusion, but the code forbids adaptive refinement with poles.
* F3 `std::sort(clderef, ...)` in `UpdateMeshBlockTree` leaves out the last element (harmless: order only matters for enclosed requests).
* F8 Load balancing of static meshes uses message sizes that are only set for adaptive ones (`C26_static_balancing_refuted`).
* F9 The static-refinement region loops can reach one block beyond the end of the mesh in a rounding corner case (note).
* F17–F19 Load balancing fails for zero costs and, in double precision, for some positive costs (`C20_zero_costs_refuted`, `C20_rounding_refuted`).
* F20–F23 Tags: guaranteed range of MPI tags, physics ids beyond five bits, six-ray ids after restart, more than 64 blocks around a pole (`C23_*_refuted`).
* F24 32-bit shifts of the root grid size; `int nnew;` uninitialised when nothing is refined (note).
* F25 On refined meshes blocks with fewer than 2*NGHOST cells are accepted, but the message to a coarser block then contains stale ghost cells of the sender (`C27_small_blocks_refuted`).
* F63 With NGHOST=4 (which refined meshes need for PPM) `RestrictGhostCellsOnSameLevel` restricts one coarse layer, but the box that is prolongated is two layers deep, so slopes use stale values of the coarse buffer (`C71_four_ghost_cells_refuted`).
* F13 `lb_time` is not set by the chemistry task list (note).
* F47 `BoundaryFlag::vacuum` is missing from the list that enables the boundary functions (note).

Arrays, input, restart, output
* F10 Copying, moving, swapping and reallocating `AthenaArray`s outside the documented use break ownership (`C29_*_refuted`).
* F4, F5 Indented block headers, lines without `=`, and values with `#` are silently misread (`C31_indented_header_refuted`, `C31_no_equal_sign_refuted`, `C30_hash_value_refuted`). F6 `SetReal` keeps six digits. F27 a command line argument with `=` before `/` (`C32_path_argument_refuted`).
* F28, F29 Headers beyond 45057 bytes and single precision restarts (`C33_long_header_refuted`, `C33_single_precision_refuted`). F30 restart_from_gray with chemistry (`C34_gray_chemistry_refuted`). F31 `Read` of the id list with more than INT_MAX bytes (note). F7 `OutputMeshStructure` details (note).
* F26, F32–F34 Output schedule: first-output flag, cycle-based outputs after restart, steps longer than the interval, extended runs, restarts far from the schedule, the final dump twice (`C36_*_refuted`).

Time integration and tasks
* F11, F12 Stage times of rk4 and ssprk5_4 (`C06_fourth_order_stage_times_refuted`), source and splitting weights of ssprk5_4 (`C56_ssprk5_4_sources_refuted`, `C05_ssprk5_4_second_order_splitting_refuted`).
* F64 With ssprk5_4 and second order splitting the orbital advection displaces by more than 1.1 steps (`C57_ssprk5_4_second_order_splitting_refuted`).
* F16 Explicit radiation in a shearing box: primitives are computed before the conserved variables are final (`C55_shearing_radiation_refuted`).
* Multigrid task lists for other than one or two smoothing steps never complete or skip work (`C01_multigrid_*_refuted`).
* F45 Courant number 1 accepted in two dimensions does not keep the first-order scheme positive (`C64_full_courant_2d_refuted`).

Numerics
* F14 Restriction of faces on a pole reads stale values (`C37_pole_refuted`). F15 minmod slopes of passive scalars use stale entries (`C43_minmod_scalars_refuted`). F39 van Leer limiter on stretched meshes (`C43_bounded_stretched_refuted`). F38 radial PPM weights away from the axis (`C44_radial_offset_refuted`).
* F35, F51 `WeightedAve` of face fields mixes components in one branch (`C40_average_refuted`; b_in3.x3f for B2).
* F40–F42 Floors in the fourth-order conversions (`C46_*_refuted`).
* F43 Roe falls back at supersonic states (`C45_roe_supersonic_refuted`); F44 HLLC is not exactly upwind at equality (`C45_hllc_exact_upwind_refuted`); LLF never upwinds (`C45_llf_upwind_refuted`). F46 averaged fast speed in hlle_mhd for gamma > 2 (note).
* F48 Reflecting walls leave the wall face of the field open (`C47_reflect_open_wall_refuted`); F49 outflow ghost faces have divergence (`C47_outflow_divergence_refuted`); F50 polar wedge zeroes an active face after the cell-centred field was computed (note).
* F52 A radial face at r = 0 is accepted and has no area (`C50_axis_refuted`).
* F53–F58 Multigrid: prescribed boundary potentials without FAS, start on the coarsest level, average subtracted on the wrong level, absolute tolerance of the cubic-cell check (`C68_*_refuted`, `C51_*_refuted`); colour offset of root-grid sweeps, NaN norms (notes).
* F59–F62 Orbital advection: empty stub of a PPM overload, one ghost cell read times zero, an index k for kk (notes); in cylindrical coordinates x3 fields are not rotated exactly (`C54_field_cylindrical_refuted`).
* F36 Seeds of ran2 (`C52_*_refuted`). F37 tables with one node (`C53_single_node_refuted`).
* F65 Octant grids of the radiation module with seven or more levels have more families of directions than weights and read outside an array; one level writes to an empty one (`C79_levels_refuted`). F66 An odd number of zeta times psi angles allocates too few directions (`C79_psi_refuted`).
* F67 The diffusive time-step limit of scalars and heat ignores the density: next to a dense cell a thin one overshoots, however small the Courant number (`C80_contrast_refuted`). F68 The limit for conduction ignores gamma (`C80_gamma_refuted`).
* F69 `viscosity.cpp` FaceZdx: the gradient of v1 along x3 is not divided by the scale factors, so the viscous stress is not symmetric in three-dimensional spherical polar coordinates (`C81_azimuth_refuted`). F70 With a varying density viscosity can raise the kinetic energy and cool the gas, because the divergence at a face is an average over more cells than the gradient (`C81_heating_refuted`).
* F71 Ambipolar diffusion in two dimensions projects the current component of an edge with a product J.B built from averages; with a diffusivity that varies from cell to cell it can make magnetic energy at every time step (`C82_ambipolar_refuted`).
* F72 `orbital_advection_srcterms.cpp` 107: with a user velocity that varies along x3 and a magnetic field, B2*B3 is added to the energy without the time step and the shear (`C83_maxwell_refuted`). F73 Lines 149 and 156: in three-dimensional cylindrical coordinates the work of the vertical gravity is added twice (`C83_vertical_twice`, `C83_vertical_refuted`). F74 `default_orbital_velocity.cpp` CylOrbitalVelocity3D_z divides by d^2 where the derivative has d^3 (`C83_vertical_derivative_refuted`).
* F75 `history.cpp`: radiation transport always reserves 14 columns but prints four labels per frequency group if there are several, so labels of cosmic rays and of user-defined outputs stand over the wrong columns (`C84_history_gap_refuted`). F76 Chemistry radiation and cosmic rays (or radiation transport) write to the same columns (`C84_history_clash_refuted`).
* F77 `schwarzschild.cpp` PrimToLocal2: `mx_2 = 1.0/r` where the frame needs `r`, so that velocities and fields normal to polar faces reach the Riemann solver divided by the square of the radius, while FluxToGlobal2 uses the right inverse (`C85_schwarzschild_theta_refuted`). F78 `kerr-schild.cpp` 244-249: at j == juu the entry of the next face is stored at j instead of j+1, so Face2Metric is wrong at the outermost polar ghost face (`C85_kerr_outer_face_refuted`).
* F79 `G14Sod.cpp` tables: reaction (12) H2 + e gives 2 H2 instead of 2 H; (13) H- + e gives H2+ instead of H; (19) takes 2 H2 instead of 2 H; (20) consumes no second H because the table has 19 of 20 initializers. Each makes or destroys hydrogen nuclei (`C86_sod_hydrogen_refuted`, amounts in `C86_sod_hydrogen`). F80 Line 362: `1.623316639567-2` without the e, so the rate of (13) is not the published fit (`C86_sod_rate_refuted`). F81 `gow17.cpp` cr reaction (5) makes HCO+ out of CO alone, so that free hydrogen can become negative (`C86_gow_hydrogen_refuted`). F82 `forward_euler.cpp`: the substep is limited by the reference abundance, not by the species itself; a rare species is driven below zero and then floored, which creates nuclei (`C86_H2_floor_refuted`).
* F83 `characteristic.cpp` 329-336 and 414-421: RightEigenmatrixDotVector takes bet2 = bet3 = 0 where the transverse field vanishes, LeftEigenmatrixDotVector takes bet2 = 1. The way back then loses the transverse velocity and field: with xorder = 3c a uniform flow across the field has zero transverse velocity at the faces, with 2c its slope is dropped (`C87_no_transverse_field`, `C87_ppm_sideways_refuted`, `C87_plm_flat_refuted`).
* F84 `cr_source.cpp` 189-195: when the gas energy would become negative it is kept while the cosmic rays take the energy anyway; when the cosmic-ray energy would become negative it is kept while the gas receives it (`C88_energy_gas_refuted`, `C88_energy_rays_refuted`).
* F85 `cr.cpp` 73: with a magnetic field and cr/vs_flag = 0 the field angles are never set and stay zero; every source step then removes the whole cosmic-ray flux and adds it to the momentum of the gas (`C88_no_streaming_refuted`).
* F86 `cr_transport.cpp` 155-169: the diffusion speeds of the three axes are rotated as a vector; in a transparent medium with the field at 45 degrees the signal speed across a face is zero instead of vmax/sqrt 3 (`C88_diffusion_speed_refuted`).
* F87 `spherical_polar.cpp` 704-719: CRGradPcCoordTermsDivergence subtracts the radial coordinate term but not the one along theta, so that a uniform population has a pressure gradient and streams along theta (`C88_spherical_gradient_refuted`).
* F88 `absorption_scattering.cpp` 136-139: when sigma_pe exceeds sigma_a + sigma_s the isotropic term is negative and a weak beam next to a strong one is driven below zero; the floor then creates radiation energy (`C89_floor_refuted`).
* F89 `rad_source.cpp` 537-549: the speed limit scales the momentum of the gas without giving the difference back to the radiation (`C89_speed_refuted`).
* F90 `adiabatic_hydro_sr.cpp` 331, 375, 199-203: a pressure up to 1e-12 is never accepted, however small the pressure floor; the fallback state saved in lines 121-126 is then overwritten by the floors at zero velocity, so a cold cell of any density loses its mass (`C90_cold_refuted`).
* F91 `adiabatic_hydro_sr.cpp` 153: the energy added for the pressure floor is w g^2 + p instead of w g^2 - p, so gas below the floor ends above it (`C90_floor_refuted`).
* F92 `multi_group.cpp` 157-163 and 472-478: the number of entries of the last group's row is not compared with the size of the rows, so a strong shift to lower frequencies writes behind the row instead of stopping with the error message (`C91_overflow_refuted`).
* F93 `multi_group.cpp` 247: when a group is shifted past its own frequencies the index of the diagonal entry is negative and the entry in front of the row is read (`C91_diagonal_refuted`); lines 114-116 read the grid one past its end before testing the index.
* F94 `bvals.cpp` 832, `bvals_shear_cc.cpp` 230-250: a negative product of Omega0 and qshear is accepted, but the direction of the remap is fixed for positive shear, so that values are extrapolated upstream and overshoot (`C92_negative_refuted`).
* F95 `hlld_iso.cpp` 142-143, 151-152: the Alfven speed of the mean gas is not limited by the fast speed of the lighter side; with a density jump of 4 and a strong normal field the Alfven wave lies outside of the fan (`C94_order_refuted`).
* F96 `lhlld.cpp` 184-188, 291-376: the low-dissipation pressure enters the energy and the degeneracy test but not the flux of momentum, which is assembled from jumps of the starred states and has the pressure of HLLD; two equal gases moving apart at Mach 1/4 get 1/4 instead of 25/64 (`C95_pressure_refuted`). Where the detector acts the flux of momentum is discontinuous in the input (`C95_jump`).
* F97 `hllc_rel.cpp` 244-251: when the averaged energy flux is at most 1e-20 the quadratic term is dropped whatever the scale of the gas; a thin gas at 3/5 of the speed of light gets the contact speed v/(1+v^2) and carries more than a tenth too little rest mass between equal states (`C97_threshold_refuted`). The test is absolute where a test relative to b is needed.
* F98 `hllc_rel.cpp` 255: the pressure at the contact has no lower bound; two gases of density 6 and pressure 1 (adiabatic index 2) that move apart at 3/5 of the speed of light get a negative pressure and a negative flux of momentum, although both gases push (`C97_pull_refuted`). Gases that do not move apart always push (`C97_push`).
