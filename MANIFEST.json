{
 "claims": [
  {
   "property": "C01",
   "status": "proved",
   "theorems": [
    "C01_time_integrator_lists",
    "C01_super_time_step_lists",
    "C01_gravity_chemistry_radiation_lists",
    "C01_multigrid_lists",
    "C01_multigrid_postsmooth_0_refuted",
    "C01_multigrid_postsmooth_3_refuted",
    "C01_multigrid_presmooth_3_refuted"
   ],
   "note": "All option combinations of the time integrator and of the other lists. Multigrid lists for one or two smoothing steps; the refuted theorems show that other smoothing counts give lists that cannot complete."
  },
  {
   "property": "C02",
   "status": "proved",
   "theorems": [
    "C02_tasks_run_once_after_dependencies"
   ],
   "note": "Any well-formed list, any number of scheduler calls, any outcomes."
  },
  {
   "property": "C03",
   "status": "proved",
   "theorems": [
    "C03_all_tasks_eventually_complete",
    "C03_stage_terminates",
    "C03_time_integrator_stage_terminates"
   ],
   "note": "Fairness is stated in Tasks_Spec.fair; any number of blocks, any interleaving of scheduler calls."
  },
  {
   "property": "C04",
   "status": "proved",
   "theorems": [
    "C04_clear_after_all_communication",
    "C04_clear_is_last",
    "C04_sts_clear_is_last"
   ],
   "note": "All 1024 configurations of the integrator and all super-time-stepping lists."
  },
  {
   "property": "C05",
   "status": "partial",
   "theorems": [
    "C05_runge_kutta_of_documented_order",
    "C05_rk4_fourth_order",
    "C05_steady_states_preserved",
    "C05_constant_rhs",
    "C05_constant_rhs_exact",
    "C05_linear_rhs",
    "C05_linear_rhs_exact",
    "C05_ssprk5_4_second_order_splitting_refuted"
   ],
   "note": "All integrators and splittings except ssprk5_4 with second order orbital splitting, for which it is false (refuted). Beyond linear problems: Butcher order conditions for arbitrary right-hand sides."
  },
  {
   "property": "C06",
   "status": "partial",
   "theorems": [
    "C06_stage_times_partial",
    "C06_fourth_order_stage_times_refuted"
   ],
   "note": "True for vl2, rk1, rk2, rk3; false for rk4 and ssprk5_4 (refuted)."
  },
  {
   "property": "C07",
   "status": "proved",
   "theorems": [
    "C07_root_grid"
   ],
   "note": "All grid sizes, 1 to 3 dimensions, any root level deep enough."
  },
  {
   "property": "C08",
   "status": "proved",
   "theorems": [
    "C08_tiling",
    "C08_requests_succeed",
    "C08_updates_succeed",
    "C08_update_is_a_step"
   ],
   "note": "All histories of requests, adaptive updates, renumberings and restarts, all boundary settings; that updates never fail needs no polar and no shearing boundary (adaptive refinement forbids both)."
  },
  {
   "property": "C09",
   "status": "proved",
   "theorems": [
    "C09_balanced"
   ],
   "note": "All histories without polar boundaries (C10)."
  },
  {
   "property": "C10",
   "status": "partial",
   "theorems": [
    "C10_inner_pole_refuted"
   ],
   "note": "False: at the inner polar boundary Refine loses the azimuthal index, refuted by a reachable mesh. Missing: the positive statement for meshes with only an outer polar boundary."
  },
  {
   "property": "C11",
   "status": "proved",
   "theorems": [
    "C11_request_honoured",
    "C11_flagged_blocks_refined"
   ],
   "note": "All boundary settings for requests; adaptive flags without polar boundaries."
  },
  {
   "property": "C12",
   "status": "proved",
   "theorems": [
    "C12_derefine",
    "C12_derefine_succeeds"
   ],
   "note": "All histories without polar boundaries."
  },
  {
   "property": "C13",
   "status": "proved",
   "theorems": [
    "C13_block_list"
   ],
   "note": "All histories."
  },
  {
   "property": "C14",
   "status": "proved",
   "theorems": [
    "C14_restart_tree"
   ],
   "note": "All histories (including earlier restarts)."
  },
  {
   "property": "C15",
   "status": "proved",
   "theorems": [
    "C15_neighbour_lookup"
   ],
   "note": "All histories and blocks, no polar or shearing boundary."
  },
  {
   "property": "C16",
   "status": "proved",
   "theorems": [
    "C16_neighbours",
    "C16_directions",
    "C16_messages",
    "C16_flux_messages"
   ],
   "note": "All meshes reachable by static requests, adaptive steps and restarts, any distribution over ranks; polar and shearing boundaries excluded (AMR with either is refused by the code).  Messages: cell-centred variables and their flux correction."
  },
  {
   "property": "C17",
   "status": "proved",
   "theorems": [
    "C17_decisions",
    "C17_finer_neighbour",
    "C17_levels_bounded"
   ],
   "note": "All sequences of checks; the finer-neighbour test is characterised over the block list, and the maximum level holds after every update."
  },
  {
   "property": "C18",
   "status": "proved",
   "theorems": [
    "C18_steps_are_redistributions",
    "C18_new_to_old",
    "C18_old_to_new",
    "C18_old_to_new_monotone",
    "C18_inverse_on_unchanged"
   ],
   "note": "C18_steps_are_redistributions shows that every adaptive step of the tree followed by a load balance meets the hypothesis of the other four."
  },
  {
   "property": "C19",
   "status": "proved",
   "theorems": [
    "C19_one_level"
   ],
   "note": "All histories and flags, no polar boundary."
  },
  {
   "property": "C20",
   "status": "partial",
   "theorems": [
    "C20_blocks_partitioned",
    "C20_no_fatal_error_partial",
    "C20_zero_costs_refuted",
    "C20_rounding_refuted"
   ],
   "note": "The partition is proved for every arithmetic (including IEEE doubles) whenever a balance is returned. That one is always returned is proved in exact arithmetic for positive costs, and refuted for zero costs and for rounded positive costs."
  },
  {
   "property": "C21",
   "status": "proved",
   "theorems": [
    "C21_load_bound",
    "C21_equal_costs"
   ],
   "note": "Exact rational arithmetic."
  },
  {
   "property": "C22",
   "status": "proved",
   "theorems": [
    "C22_tags_distinct"
   ],
   "note": "All messages received by a rank in one redistribution, block transfers and face field corrections. Unbounded tags: the range is the subject of C23."
  },
  {
   "property": "C23",
   "status": "partial",
   "theorems": [
    "C23_tags_injective",
    "C23_tag_range",
    "C23_guaranteed_range_refuted",
    "C23_physics_ids_partial",
    "C23_implicit_radiation_refuted",
    "C23_restarted_six_ray_refuted",
    "C23_all_physics_refuted",
    "C23_polar_slots_refuted"
   ],
   "note": "Tags are injective in (block, slot, physics id). Physics ids are distinct and fit five bits except in the refuted configurations; polar electromotive-force messages collide with more than 64 blocks around a pole."
  },
  {
   "property": "C24",
   "status": "proved",
   "theorems": [
    "C24_slots_enumerate_directions",
    "C24_lookup_returns_own_slot",
    "C24_slots_fit_tags"
   ],
   "note": "All dimensions, with and without refinement."
  },
  {
   "property": "C25",
   "status": "proved",
   "theorems": [
    "C25_pack_unpack_3d",
    "C25_pack_unpack_4d",
    "C25_pack_unpack_5d"
   ],
   "note": "For every array, range (possibly empty), offset and displacement between packed and unpacked region: number of elements, untouched rest of the buffer and array, contents."
  },
  {
   "property": "C26",
   "status": "proved",
   "theorems": [
    "C26_accesses_inside",
    "C26_same_level",
    "C26_fine_to_coarse",
    "C26_children_cover",
    "C26_coarse_to_fine",
    "C26_static_balancing_refuted"
   ],
   "note": "Sizes, memory safety and contents of the three kinds of message that move a block, for all block sizes, ghost widths, variable lists, dimensions and child positions; the same-rank copies give the same arrays. Refuted part: sizes are left unset on static meshes although load balancing of static meshes uses them."
  },
  {
   "property": "C27",
   "status": "proved",
   "theorems": [
    "C27_exchange",
    "C27_complete",
    "C27_message_sizes",
    "C27_accepted_sizes",
    "C27_small_blocks_refuted"
   ],
   "note": "Cell-centred variables, all tree histories without poles and shearing boundaries, any restriction operator. On refined meshes for blocks of at least 2*NGHOST cells; smaller blocks that the code accepts refute it."
  },
  {
   "property": "C28",
   "status": "proved",
   "theorems": [
    "C28_indexing",
    "C28_fewer_indices",
    "C28_slices",
    "C28_pencils"
   ],
   "note": "Element access is a bijection from in-range index tuples to storage, last index fastest, for every extent; slices and pencils alias exactly the shifted elements. C++ int overflow is not modelled."
  },
  {
   "property": "C29",
   "status": "proved",
   "theorems": [
    "C29_ownership",
    "C29_slice_usable",
    "C29_copy_of_empty_refuted",
    "C29_move_of_empty_refuted",
    "C29_assign_to_slice_refuted",
    "C29_swap_slice_refuted",
    "C29_reallocation_leaks_refuted"
   ],
   "note": "For every sequence of operations used as documented (spec: proper) no undefined behaviour occurs, every live block has exactly one owner and nothing leaks. The refuted theorems show the documented restrictions are necessary: copying or moving from an empty array, assigning to a slice, swapping a slice and reallocating break it."
  },
  {
   "property": "C30",
   "status": "proved",
   "theorems": [
    "C30_dump_reload",
    "C30_run_reload",
    "C30_hash_value_refuted"
   ],
   "note": "All stores whose texts can be written (spec: writable), and all stores reached by histories of writable assignments; contents, order and comments. Refuted outside that class: a command line value with # is cut on restart."
  },
  {
   "property": "C31",
   "status": "proved",
   "theorems": [
    "C31_load",
    "C31_history",
    "C31_no_duplicates",
    "C31_set_get",
    "C31_get_or_add",
    "C31_exists",
    "C31_integers",
    "C31_booleans",
    "C31_indented_header_refuted",
    "C31_no_equal_sign_refuted"
   ],
   "note": "All histories of file loads (documented format), assignments, queries with default and command line arguments. Real-valued parameters are covered as strings only. Findings: indented headers and lines without = are misread silently."
  },
  {
   "property": "C32",
   "status": "proved",
   "theorems": [
    "C32_assignment",
    "C32_other",
    "C32_all_arguments",
    "C32_no_new_parameters",
    "C32_path_argument_refuted"
   ],
   "note": "All argument texts; the one class not behaving as documented (= before /) is isolated and refuted."
  },
  {
   "property": "C33",
   "status": "proved",
   "theorems": [
    "C33_regions",
    "C33_restart",
    "C33_header",
    "C33_long_header_refuted",
    "C33_single_precision_refuted"
   ],
   "note": "All rank partitions of writer and reader, all orders of the writes, all header contents that can be written, all block counts and sizes; double precision. MPI-IO is modelled as byte writes at offsets. Refuted: headers longer than 45057 bytes cannot be read back; single precision restarts parse beyond the buffer."
  },
  {
   "property": "C34",
   "status": "proved",
   "theorems": [
    "C34_record",
    "C34_gray_chemistry_refuted"
   ],
   "note": "All configurations and array sizes; restart_from_gray conversion itself is not modelled, and its size check is refuted with chemistry."
  },
  {
   "property": "C35",
   "status": "proved",
   "theorems": [
    "C35_step",
    "C35_other_limits",
    "C35_largest",
    "C35_distribution",
    "C35_history",
    "C35_ends_exactly"
   ],
   "note": "All meshes, rank distributions and histories, exact arithmetic; signal speeds are positive inputs."
  },
  {
   "property": "C36",
   "status": "proved",
   "theorems": [
    "C36_counting",
    "C36_prompt",
    "C36_cycles",
    "C36_restart",
    "C36_restart_new_interval",
    "C36_new_output",
    "C36_long_step_refuted",
    "C36_restart_far_refuted",
    "C36_extended_run_refuted",
    "C36_fresh_flag_refuted",
    "C36_cycle_restart_refuted",
    "C36_final_twice_refuted"
   ],
   "note": "All sequences of calls, exact arithmetic. Promptness needs steps not longer than the interval (refuted otherwise). Further findings: schedule shifts at restart."
  },
  {
   "property": "C37",
   "status": "proved",
   "theorems": [
    "C37_cells",
    "C37_x1_faces",
    "C37_x2_faces",
    "C37_x3_faces",
    "C37_rest",
    "C37_pole_refuted"
   ],
   "note": "All dimensions, ranges, volumes and areas, exact arithmetic. Faces on a pole have no area, so nothing is lost there; refuted: the value the code gives them depends on stale contents of a work array."
  },
  {
   "property": "C38",
   "status": "proved",
   "theorems": [
    "C38_mean",
    "C38_inverse",
    "C38_bounded",
    "C38_linear",
    "C38_rest",
    "C38_uniform",
    "C38_all_coordinates"
   ],
   "note": "All dimensions and ranges, exact arithmetic. C38_all_coordinates discharges the conditions on volumes and centres for Cartesian, cylindrical and spherical-polar grids; bounds need fine centres within a third of the spacing (C38_uniform for uniform grids)."
  },
  {
   "property": "C39",
   "status": "proved",
   "theorems": [
    "C39_x1_faces",
    "C39_x2_faces",
    "C39_x3_faces",
    "C39_inner_faces",
    "C39_equal_shares",
    "C39_prolongation",
    "C39_cartesian",
    "C39_all_coordinates"
   ],
   "note": "All dimensions and ranges, exact arithmetic; Cartesian, cylindrical and spherical-polar instances without side conditions."
  },
  {
   "property": "C40",
   "status": "proved",
   "theorems": [
    "C40_cell_flux",
    "C40_copied_fields",
    "C40_two_dimensions",
    "C40_three_dimensions",
    "C40_history",
    "C40_shared_face",
    "C40_average_refuted",
    "C40_all_coordinates"
   ],
   "note": "Exact arithmetic; any geometry with non-zero face areas (zero on poles), 1D-3D, any sequence of updates, averages, copies and RKL2 registers; the condition is discharged for the three coordinate systems off the axis. Shared-face equality is proved for x1 faces. Finding: WeightedAve mixes components in one branch of the weights."
  },
  {
   "property": "C41",
   "status": "proved",
   "theorems": [
    "C41_block",
    "C41_ghosts",
    "C41_mesh",
    "C41_closed_mesh",
    "C41_average",
    "C41_register"
   ],
   "note": "Exact arithmetic, any geometry, any number of blocks; the matching of patch flows is a hypothesis, which C42 discharges at level jumps."
  },
  {
   "property": "C42",
   "status": "proved",
   "theorems": [
    "C42_faces",
    "C42_flow",
    "C42_parts",
    "C42_all_neighbours"
   ],
   "note": "All sides, dimensions, sizes and orders of arrival, exact arithmetic. Cell-centred variables; the edge-field corrections of flux_correction_fc.cpp are not modelled."
  },
  {
   "property": "C43",
   "status": "proved",
   "theorems": [
    "C43_bounded_uniform",
    "C43_bounded_stretched",
    "C43_bounded_stretched_refuted",
    "C43_constant",
    "C43_linear",
    "C43_mirror",
    "C43_any_variable",
    "C43_minmod_scalars_refuted"
   ],
   "note": "Exact arithmetic, all data. Bounds with the van Leer limiter on stretched meshes need neighbours that are not much smaller (refuted otherwise). Characteristic projection is not included. Passive scalars beyond NWAVE with minmod use stale slopes (refuted)."
  },
  {
   "property": "C44",
   "status": "proved",
   "theorems": [
    "C44_bounded_uniform",
    "C44_bounded_stretched",
    "C44_bounded_radial",
    "C44_constant",
    "C44_linear_uniform",
    "C44_linear_stretched",
    "C44_mirror_uniform",
    "C44_mirror_stretched",
    "C44_cubic_uniform",
    "C44_cubic_radial",
    "C44_radial_offset_refuted",
    "C44_weno_quadratic",
    "C44_weno_mirror"
   ],
   "note": "Exact arithmetic, all data, both limiters, also stretched and radial directions and the WENO methods. Radial weights fit only a block that starts at the axis (refuted elsewhere). Weights obtained by solving linear systems are arbitrary in the bounds theorem. Characteristic projection is not included."
  },
  {
   "property": "C45",
   "status": "proved",
   "theorems": [
    "C45_llf_consistent",
    "C45_hlle_consistent",
    "C45_hllc_consistent",
    "C45_lhllc_consistent",
    "C45_roe_consistent",
    "C45_llf_mhd_consistent",
    "C45_hlle_mhd_consistent",
    "C45_hlld_consistent",
    "C45_llf_mirror",
    "C45_hlle_mirror",
    "C45_hllc_mirror",
    "C45_lhllc_mirror",
    "C45_roe_mirror",
    "C45_llf_mhd_mirror",
    "C45_hlle_mhd_mirror",
    "C45_hlld_mirror",
    "C45_hlle_upwind",
    "C45_hlle_mhd_upwind",
    "C45_hlld_upwind",
    "C45_roe_upwind_partial",
    "C45_hllc_upwind_partial",
    "C45_llf_upwind_refuted",
    "C45_roe_supersonic_refuted",
    "C45_hllc_exact_upwind_refuted",
    "C45_hllc_contact",
    "C45_directions",
    "C45_hlle_isothermal_supersonic",
    "C45_hlle_speeds",
    "C45_outer_speeds",
    "C45_hllc_star",
    "C45_lhllc_is_hllc",
    "C45_roe_waves",
    "C45_hlld_fan",
    "C45_hlld_contact_between"
   ],
   "note": "LLF, HLLE, HLLC, LHLLC, Roe and, with magnetic fields, LLF, HLLE, HLLD: consistency, mirror symmetry, upwinding, wave structure. Upwinding of LLF, of Roe when its density check fires and exact upwinding of HLLC are refuted. Not modelled: relativistic solvers, general EOS, roe_mhd, hlld_iso, lhlld."
  },
  {
   "property": "C46",
   "status": "proved",
   "theorems": [
    "C46_round_trip",
    "C46_round_trip_mhd",
    "C46_round_trip_isothermal",
    "C46_round_trip_scalar",
    "C46_floors",
    "C46_floors_mhd",
    "C46_floors_isothermal",
    "C46_floors_scalar",
    "C46_valid_unchanged",
    "C46_twice",
    "C46_least_change",
    "C46_face_states",
    "C46_scalar_face_states",
    "C46_cell_average",
    "C46_cell_average_uniform",
    "C46_cell_average_mass",
    "C46_cell_average_advected",
    "C46_cell_average_valid_refuted",
    "C46_conserved_floors_refuted",
    "C46_scalar_average_floor_refuted"
   ],
   "note": "Exact arithmetic, every state. The fourth-order conversion breaks parts of the claim: floors separate the two sets of variables, change the mass of valid cells, and for scalars act on another cell (all refuted with witnesses). Relativistic and tabulated equations of state are not modelled."
  },
  {
   "property": "C47",
   "status": "proved",
   "theorems": [
    "C47_completes",
    "C47_cells",
    "C47_faces",
    "C47_active_unchanged",
    "C47_active_faces_unchanged",
    "C47_communicated_kept",
    "C47_ghost_consistent",
    "C47_reflect_divergence",
    "C47_wall_closed",
    "C47_reflect_open_wall_refuted",
    "C47_outflow_divergence_refuted"
   ],
   "note": "All block sizes, ghost widths (at most the block size), dimensions and combinations of reflecting, outflow, polar-wedge and communicated boundaries; hydro, scalars, face field, cell-centred field and conserved variables. User-enrolled functions are not modelled."
  },
  {
   "property": "C48",
   "status": "proved",
   "theorems": [
    "C48_is_rkl",
    "C48_steady",
    "C48_constant",
    "C48_stage_count",
    "C48_cycle",
    "C48_conserved",
    "C48_stable",
    "C48_order"
   ],
   "note": "All stage counts, right-hand sides and register contents; stability and order for linear right-hand sides. Exact arithmetic; the diffusive flux functions themselves are a parameter."
  },
  {
   "property": "C49",
   "status": "proved",
   "theorems": [
    "C49_shared_faces",
    "C49_adjacent_blocks",
    "C49_child_limits",
    "C49_domain_ends",
    "C49_ghost_faces",
    "C49_coarse_faces",
    "C49_increasing",
    "C49_widths",
    "C49_mirrored_ghosts",
    "C49_generators",
    "C49_ratio"
   ],
   "note": "Any rounding function that keeps integers up to twice the number of cells exact, any generator, all levels and positions. Monotonicity is proved in exact arithmetic."
  },
  {
   "property": "C50",
   "status": "proved",
   "theorems": [
    "C50_volume",
    "C50_areas",
    "C50_lengths",
    "C50_signs",
    "C50_block",
    "C50_refined",
    "C50_centres",
    "C50_axis_refuted"
   ],
   "note": "Cartesian, cylindrical, spherical-polar; exact arithmetic. Volumes, areas and lengths are the integrals of the scale factors. Finding: a radial face at r = 0 is accepted and has no area."
  },
  {
   "property": "C51",
   "status": "proved",
   "theorems": [
    "C51_levels",
    "C51_restriction",
    "C51_prolongation_exact",
    "C51_prolongation_bounded",
    "C51_defect",
    "C51_compatible",
    "C51_cubic_check_refuted",
    "C51_coarsest_average_refuted"
   ],
   "note": "Exact arithmetic, uniform meshes (no octets of refined meshes). Findings: absolute tolerance of the cubic-cell check; average subtracted on the wrong level of the root grid."
  },
  {
   "property": "C52",
   "status": "proved",
   "theorems": [
    "C52_range",
    "C52_reproducible",
    "C52_combined_generators",
    "C52_seed_zero_refuted",
    "C52_large_seed_refuted"
   ],
   "note": "Seeds of absolute value below 2147483563, any number of calls, any earlier state. Exact quotient instead of the rounded product. Findings: larger seeds read outside the table; seeds 0 and -1 coincide."
  },
  {
   "property": "C53",
   "status": "proved",
   "theorems": [
    "C53_bounded",
    "C53_nodes",
    "C53_bilinear",
    "C53_single_node_refuted"
   ],
   "note": "All table sizes with at least two nodes in each direction, exact arithmetic."
  },
  {
   "property": "C54",
   "status": "proved",
   "theorems": [
    "C54_displaced",
    "C54_conserved",
    "C54_rotation",
    "C54_constant",
    "C54_bounded",
    "C54_step_limit",
    "C54_field",
    "C54_field_cylindrical_refuted"
   ],
   "note": "Exact arithmetic, uniform azimuthal spacing, ring of blocks on one level (orbital buffers between levels not modelled), any number of blocks, rows and offsets, both message orders, PLM and PPM. Finding: in cylindrical coordinates the x3 field is not rotated exactly by a whole-cell displacement."
  },
  {
   "property": "C55",
   "status": "partial",
   "theorems": [
    "C55_primitives_after_all_updates_partial",
    "C55_shearing_radiation_refuted"
   ],
   "note": "False for explicit radiation in a shearing box without mesh refinement and orbital advection (refuted by a schedule); proved for all other configurations."
  },
  {
   "property": "C56",
   "status": "partial",
   "theorems": [
    "C56_sources_integrated_like_fluxes_partial",
    "C56_ssprk5_4_sources_refuted"
   ],
   "note": "Time-independent sources, all integrators except ssprk5_4, for which it is false (refuted)."
  },
  {
   "property": "C57",
   "status": "partial",
   "theorems": [
    "C57_orbital_advection_covers_the_step_partial",
    "C57_fourth_order_integrators",
    "C57_ssprk5_4_second_order_splitting_refuted"
   ],
   "note": "Exactly for vl2, rk1, rk2, rk3, up to the accuracy of the coefficients for rk4 with both splittings and ssprk5_4 with first order splitting. False for ssprk5_4 with second order splitting (refuted)."
  },
  {
   "property": "C58",
   "status": "proved",
   "theorems": [
    "C58_weighted_average"
   ],
   "note": "Element-wise; exact arithmetic."
  },
  {
   "property": "C59",
   "status": "proved",
   "theorems": [
    "C59_sends_match_receives",
    "C59_between_ranks",
    "C59_messages_are_overlaps",
    "C59_message_kinds"
   ],
   "note": "All redistributions."
  },
  {
   "property": "C60",
   "status": "proved",
   "theorems": [
    "C60_block_count",
    "C60_group_array_fits"
   ],
   "note": ""
  },
  {
   "property": "C61",
   "status": "proved",
   "theorems": [
    "C61_fast_speed",
    "C61_no_nan",
    "C61_no_field"
   ],
   "note": "Adiabatic and isothermal, exact arithmetic."
  },
  {
   "property": "C62",
   "status": "proved",
   "theorems": [
    "C62_cell_centered_field"
   ],
   "note": "Any face positions and volume centre in the cell."
  },
  {
   "property": "C63",
   "status": "proved",
   "theorems": [
    "C63_upwind_weight"
   ],
   "note": "Exact arithmetic."
  },
  {
   "property": "C64",
   "status": "proved",
   "theorems": [
    "C64_positive",
    "C64_code_time_step",
    "C64_hlle_positive",
    "C64_full_courant_2d_refuted"
   ],
   "note": "Single forward Euler stage, donor cell, uniform Cartesian. The Courant limit 1.0 accepted by rk1, rk2, rk3 in 2-D is refuted."
  },
  {
   "property": "C65",
   "status": "proved",
   "theorems": [
    "C65_scalar_bounds",
    "C65_uniform"
   ],
   "note": "Same scheme."
  },
  {
   "property": "C66",
   "status": "proved",
   "theorems": [
    "C66_fluid_at_rest"
   ],
   "note": "Exact arithmetic; no viscosity."
  },
  {
   "property": "C67",
   "status": "proved",
   "theorems": [
    "C67_pure_divergence",
    "C67_block"
   ],
   "note": "Exact arithmetic; any fluxes."
  },
  {
   "property": "C68",
   "status": "proved",
   "theorems": [
    "C68_unique",
    "C68_fixed_point",
    "C68_prescribed_potential_refuted",
    "C68_coarsest_start_refuted"
   ],
   "note": "Exact arithmetic, uniform meshes, one variable. The fixed point needs homogeneous boundaries on coarse levels without FAS and a start above the coarsest level; both exceptions are findings with witnesses."
  },
  {
   "property": "C69",
   "status": "proved",
   "theorems": [
    "C69_any_order",
    "C69_colours",
    "C69_defect_reduction",
    "C69_stable"
   ],
   "note": "Exact arithmetic."
  },
  {
   "property": "C70",
   "status": "proved",
   "theorems": [
    "C70_iteration_ends",
    "C70_converged"
   ],
   "note": "Exact arithmetic (a NaN norm would end the loop silently)."
  },
  {
   "property": "C71",
   "status": "proved",
   "theorems": [
    "C71_prolongation",
    "C71_proper_unique",
    "C71_no_stale_values",
    "C71_four_ghost_cells_refuted"
   ],
   "note": "Cell-centred variables (the whole hydrodynamic state of a cell as one value), any local restriction, prolongation, boundary functions and equation of state, NGHOST = 2, physical and periodic boundaries. With NGHOST = 4 it is refuted: the second coarse layer of neighbours of the same level is never restricted."
  },
  {
   "property": "C72",
   "status": "proved",
   "theorems": [
    "C72_conservation",
    "C72_periodic",
    "C72_send_any_time",
    "C72_uniform_geometry",
    "C72_after_exchange"
   ],
   "note": "Exact arithmetic, all tree histories without poles and shearing boundaries, any geometry whose face areas match (proved for uniform Cartesian meshes), one conserved variable (the loops treat each one alike)."
  },
  {
   "property": "C73",
   "status": "proved",
   "theorems": [
    "C73_corrected_emfs",
    "C73_any_order",
    "C73_uniform_lengths"
   ],
   "note": "Exact arithmetic, all tree histories without poles and shearing boundaries, one, two and three dimensions; edge lengths only have to be positive and agree between blocks of a level."
  },
  {
   "property": "C74",
   "status": "proved",
   "theorems": [
    "C74_update",
    "C74_step",
    "C74_average",
    "C74_history",
    "C74_uniform_geometry"
   ],
   "note": "Exact arithmetic, all tree histories without poles and shearing boundaries; any geometry whose lengths and areas match between blocks (proved for uniform Cartesian meshes). Averages outside the weights of finding C40_average_refuted. Prolongation of the field is C39."
  },
  {
   "property": "C75",
   "status": "proved",
   "theorems": [
    "C75_exchange",
    "C75_message_sizes",
    "C75_fields_consistent",
    "C75_uncharged",
    "C75_uniform_geometry",
    "C75_after_run"
   ],
   "note": "All tree histories without poles and shearing boundaries, one, two and three dimensions. Fields have to agree on shared faces, which C74 keeps; charges in exact arithmetic."
  },
  {
   "property": "C76",
   "status": "proved",
   "theorems": [
    "C76_conservation",
    "C76_unchanged",
    "C76_ranks",
    "C76_bounded",
    "C76_uniform",
    "C76_run"
   ],
   "note": "Exact arithmetic. Cell-centred variables; face fields through a refinement step are not covered. Steps are those C18 derives from the tree; that each message reaches the block it is meant for is C59. Volumes and positions only have to match between parent and child (proved for uniform Cartesian meshes)."
  },
  {
   "property": "C77",
   "status": "proved",
   "theorems": [
    "C77_root",
    "C77_large",
    "C77_failure"
   ],
   "note": "Exact arithmetic."
  },
  {
   "property": "C78",
   "status": "proved",
   "theorems": [
    "C78_solves",
    "C78_inverse",
    "C78_singular",
    "C78_product",
    "C78_rotation"
   ],
   "note": "Exact arithmetic; any size. Singular matrices without a row of zeros are outside the claim (the code replaces the pivot by 1e-20)."
  },
  {
   "property": "C79",
   "status": "proved",
   "theorems": [
    "C79_octants",
    "C79_quadrants",
    "C79_unit",
    "C79_psi",
    "C79_levels_refuted",
    "C79_psi_refuted"
   ],
   "note": "Exact arithmetic, Cartesian coordinates. One-dimensional Gauss-Legendre angles, angle_flag 10 and polar angles are not covered. The property fails for one and seven levels and for odd products of the numbers of angles (refuted)."
  },
  {
   "property": "C80",
   "status": "proved",
   "theorems": [
    "C80_downhill_scalar",
    "C80_downhill_heat",
    "C80_scalar",
    "C80_scalar_uniform",
    "C80_heat",
    "C80_contrast_refuted",
    "C80_gamma_refuted"
   ],
   "note": "Exact arithmetic, one stage, fluid at rest. The limits of the code alone do not suffice (two refuted theorems)."
  },
  {
   "property": "C81",
   "status": "proved",
   "theorems": [
    "C81_linear",
    "C81_rigid",
    "C81_rotation_cylindrical",
    "C81_rotation_spherical",
    "C81_dissipates",
    "C81_energy",
    "C81_azimuth_refuted",
    "C81_heating_refuted"
   ],
   "note": "Exact arithmetic; dissipation at the rate level (no time step). The symmetry of the stress fails in spherical polar coordinates and dissipation fails with varying density (refuted)."
  },
  {
   "property": "C82",
   "status": "proved",
   "theorems": [
    "C82_current",
    "C82_current_in_plane",
    "C82_ohmic",
    "C82_decay",
    "C82_ambipolar",
    "C82_joule",
    "C82_ambipolar_refuted"
   ],
   "note": "Exact arithmetic, uniform Cartesian mesh in one periodic block. Ambipolar diffusion and Joule heating in one dimension; in two dimensions ambipolar diffusion can make magnetic energy (refuted), three dimensions are not modelled."
  },
  {
   "property": "C83",
   "status": "proved",
   "theorems": [
    "C83_untouched",
    "C83_work_cartesian",
    "C83_work_curvilinear",
    "C83_work_orbital",
    "C83_maxwell_refuted",
    "C83_vertical_twice",
    "C83_vertical_refuted",
    "C83_rotating_frame",
    "C83_orbital_frame",
    "C83_shear_equilibrium",
    "C83_potential_energy",
    "C83_total_energy",
    "C83_tidal_energy",
    "C83_no_self_force",
    "C83_orbital_derivatives",
    "C83_vertical_derivative_refuted",
    "C83_switches"
   ],
   "note": "Exact arithmetic, one stage; work is compared where the mass fluxes at the faces are those of the cell. The property fails for orbital advection with a user velocity that varies along x3 and a magnetic field, for the default flow in three-dimensional cylindrical coordinates and for the vertical derivative of that flow (refuted)."
  },
  {
   "property": "C84",
   "status": "proved",
   "theorems": [
    "C84_converted_velocity",
    "C84_selects",
    "C84_transform",
    "C84_cell_unique",
    "C84_one_block",
    "C84_sums",
    "C84_requests",
    "C84_lengths",
    "C84_spherical_directions",
    "C84_cylindrical_directions",
    "C84_meridional",
    "C84_linear",
    "C84_orbital_system",
    "C84_converted",
    "C84_history",
    "C84_history_user",
    "C84_history_length",
    "C84_history_conserved",
    "C84_history_gap_refuted",
    "C84_history_clash_refuted"
   ],
   "note": "Exact arithmetic. The layout of the history columns is wrong for two or three frequency groups with cosmic rays or user columns, and for chemistry radiation with cosmic rays (two refuted theorems); C84_history excludes these configurations. Formatting of numbers and the file formats of other outputs are not modelled."
  },
  {
   "property": "C85",
   "status": "proved",
   "theorems": [
    "C85_schwarzschild_metric",
    "C85_kerr_metric",
    "C85_minkowski_metric",
    "C85_kerr_outer_face_refuted",
    "C85_indices",
    "C85_kerr_frames",
    "C85_schwarzschild_frames",
    "C85_schwarzschild_theta_refuted",
    "C85_schwarzschild_theta_scaled",
    "C85_hydro",
    "C85_schwarzschild_sources",
    "C85_kerr_sources",
    "C85_kerr_volume",
    "C85_schwarzschild_volume"
   ],
   "note": "Exact arithmetic. The property fails at polar faces in Schwarzschild coordinates (the transformation into the frame divides by the radius where it should multiply) and at the outermost polar ghost face in Kerr-Schild coordinates (refuted theorems). gr_user.cpp (numerical derivatives) and the line lengths used in the electromotive forces are not modelled."
  },
  {
   "property": "C86",
   "status": "proved",
   "theorems": [
    "C86_integrate",
    "C86_conserved",
    "C86_floor_adds",
    "C86_gentle",
    "C86_completes",
    "C86_H2",
    "C86_H2_step",
    "C86_H2_floor_refuted",
    "C86_gow_elements",
    "C86_gow_reactions",
    "C86_gow_balanced",
    "C86_gow_positive",
    "C86_gow_hydrogen_refuted",
    "C86_sod_charge",
    "C86_sod_helium",
    "C86_sod_reactions",
    "C86_sod_hydrogen",
    "C86_sod_hydrogen_refuted",
    "C86_sod_rate_refuted"
   ],
   "note": "The integrator for any network; H2, gow17 and G14Sod tables for any rate coefficients. The floor creates nuclei when a rare species is driven below zero (C86_H2_floor_refuted); gow17 reaction cr+CO makes a hydrogen nucleus (C86_gow_hydrogen_refuted); four rows of the G14Sod tables do not conserve hydrogen (C86_sod_hydrogen_refuted) and one rate has a typing error (C86_sod_rate_refuted). CVODE and the temperature dependence of the other rates are not modelled."
  },
  {
   "property": "C87",
   "status": "proved",
   "theorems": [
    "C87_roundtrip",
    "C87_others_kept",
    "C87_waves",
    "C87_speeds_unique",
    "C87_no_transverse_field",
    "C87_roundtrip_refuted",
    "C87_plm_linear",
    "C87_plm_flat_refuted",
    "C87_ppm_uniform",
    "C87_ppm_sideways_refuted"
   ],
   "note": "Exact arithmetic. Where the transverse field vanishes the property fails: the two functions choose different directions for it, so that 3c brings transverse motion to rest at the faces and 2c drops its slope (refuted theorems). Floors applied after the reconstruction are not modelled here."
  },
  {
   "property": "C88",
   "status": "proved",
   "theorems": [
    "C88_implicit",
    "C88_momentum",
    "C88_energy",
    "C88_passive",
    "C88_equilibrium",
    "C88_energy_gas_refuted",
    "C88_energy_rays_refuted",
    "C88_angles",
    "C88_no_streaming_refuted",
    "C88_streaming",
    "C88_perpendicular_work",
    "C88_flux",
    "C88_flux_consistent",
    "C88_flux_upwind",
    "C88_flux_mirror",
    "C88_diffusion_speed",
    "C88_diffusion_speed_refuted",
    "C88_uniform",
    "C88_gradient",
    "C88_no_gradient",
    "C88_spherical_gradient_refuted"
   ],
   "note": "Exact arithmetic, default opacity and streaming functions. Reconstruction of the face states and user-defined source terms are not modelled. Four parts of the property fail in the code and are stated as refuted theorems."
  },
  {
   "property": "C89",
   "status": "proved",
   "theorems": [
    "C89_frames",
    "C89_aberration",
    "C89_transfer",
    "C89_unique",
    "C89_energy",
    "C89_static",
    "C89_equilibrium",
    "C89_floor_refuted",
    "C89_conservation",
    "C89_limits",
    "C89_speed_refuted",
    "C89_moments",
    "C89_isotropic"
   ],
   "note": "One frequency group for the source step, any number for moments and the exchange with the gas. Compton scattering and the mapping between frequency groups are not modelled. Refuted: conservation when the intensity floor acts (absorption mean above the total mean opacity) and when the speed limit acts."
  },
  {
   "property": "C90",
   "status": "proved",
   "theorems": [
    "C90_conserved",
    "C90_unique",
    "C90_round_trip",
    "C90_accuracy",
    "C90_settled",
    "C90_sound_speeds",
    "C90_sound_addition",
    "C90_cold_refuted",
    "C90_floor_refuted"
   ],
   "note": "Exact arithmetic, hydrodynamics only. Convergence within fifteen iterations is not proved. Refuted: gas above the floors keeps its density (a pressure up to 1e-12 cannot be recovered and the cell is emptied, the saved previous state is not used); gas below the pressure floor is raised to the floor (twice the floor at rest)."
  },
  {
   "property": "C91",
   "status": "proved",
   "theorems": [
    "C91_conserved",
    "C91_nonneg",
    "C91_shares",
    "C91_shares_back",
    "C91_faces",
    "C91_still",
    "C91_still_back",
    "C91_inverse",
    "C91_recovered",
    "C91_overflow_refuted",
    "C91_diagonal_refuted"
   ],
   "note": "Exact arithmetic. The fit of the integrated Planck function is a parameter, assumed monotone only for non-negativity. The inverse mapping is covered for shifts of at least 1. Refuted: a shift over too many groups is always reported (the last group is not tested and its row overruns); the test of the diagonal reads its own row."
  },
  {
   "property": "C92",
   "status": "proved",
   "theorems": [
    "C92_ghosts",
    "C92_fluxes",
    "C92_conserved",
    "C92_whole",
    "C92_bounded",
    "C92_velocity",
    "C92_negative_refuted"
   ],
   "note": "Exact arithmetic, cell-centred variables; the periodic values and the fluxes of the opposite side that enter the exchange are taken as given, magnetic fields are C93, radiation is not covered. Refuted: the sign of the shear does not matter (a rotation in the other direction is accepted but extrapolates upstream)."
  },
  {
   "property": "C93",
   "status": "proved",
   "theorems": [
    "C93_faces",
    "C93_emf",
    "C93_shared",
    "C93_conserved",
    "C93_divergence"
   ],
   "note": "Exact arithmetic. The halving of electromotive forces received twice at block edges happens before and is not modelled; the values that enter the exchange are taken as given. The third field component and the second electromotive force are lines of cells and covered by C92."
  },
  {
   "property": "C94",
   "status": "proved",
   "theorems": [
    "C94_consistent",
    "C94_upwind",
    "C94_fan",
    "C94_alfven",
    "C94_mirror",
    "C94_order_refuted"
   ],
   "note": "Exact arithmetic. The jump conditions are proved outside the degenerate case of the code (an Alfven wave within 1e-4 sound speeds of the fast wave) and when the density floor is not applied. Mirror symmetry for a non-zero normal field. Refuted: the four waves are ordered (behind a density jump the Alfven wave can be faster than the fast wave)."
  },
  {
   "property": "C95",
   "status": "proved",
   "theorems": [
    "C95_positive",
    "C95_flow_speed",
    "C95_contact",
    "C95_consistent",
    "C95_upwind",
    "C95_full",
    "C95_mirror",
    "C95_momentum",
    "C95_jump",
    "C95_pressure_refuted"
   ],
   "note": "Exact arithmetic, adiabatic gas. Mirror symmetry for a middle wave that is not at rest. Refuted: the low-dissipation pressure is the pressure of the momentum flux (it enters the energy only; C95_momentum gives the pressure that is used, C95_jump its jump across the middle wave where the detector acts)."
  },
  {
   "property": "C96",
   "status": "proved",
   "theorems": [
    "C96_speeds",
    "C96_consistent",
    "C96_upwind",
    "C96_mirror",
    "C96_fan",
    "C96_step",
    "C96_admissible",
    "C96_step_gas"
   ],
   "note": "Exact arithmetic, special relativity (the frame transformations of general relativity around the same code are not part of this property)."
  },
  {
   "property": "C97",
   "status": "proved",
   "theorems": [
    "C97_fan",
    "C97_upwind",
    "C97_contact",
    "C97_consistent",
    "C97_mirror",
    "C97_push",
    "C97_threshold_refuted",
    "C97_pull_refuted"
   ],
   "note": "Exact arithmetic, special relativity. An averaged energy flux below TINY_NUMBER (1e-20) but not zero is excluded: there the code uses the linear formula, which is not exact (F97)."
  }
 ]
}