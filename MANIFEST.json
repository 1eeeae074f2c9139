{
 "claims": [
  {
   "property": "C01",
   "status": "proved",
   "theorems": [
    "C01_align_total",
    "C01_search",
    "C01_to_global",
    "C01_local_global_local",
    "C01_global_local_global",
    "C01_global_size",
    "C01_to_global_rejects_refuted",
    "C01_to_global_rank_refuted"
   ],
   "note": "Search, conversion and round trips for every list of rank sizes. The clause that conversion rejects every pair that is not an item is false of the code: the two _refuted theorems give the counterexamples."
  },
  {
   "property": "C02",
   "status": "proved",
   "theorems": [
    "C02_setup_total",
    "C02_unowned_rejected",
    "C02_slots",
    "C02_lookup_main",
    "C02_lookup_ghost",
    "C02_lookup_none",
    "C02_search_in_rank"
   ],
   "note": "For every list of sizes and pull lists on every rank, including duplicates and unowned requests."
  },
  {
   "property": "C03",
   "status": "proved",
   "theorems": [
    "C03_dual",
    "C03_send_list_exact"
   ],
   "note": "Send and receive lists agree position by position for every pair of ranks."
  },
  {
   "property": "C04",
   "status": "proved",
   "theorems": [
    "C04_create",
    "C04_pull",
    "C04_order"
   ],
   "note": "Derived-datatype exchange, every layout, any number of ranks, any arrival order, any reachable array state. Hypotheses: equal dynamic widths across ranks and fewer than 2^31-1 ghost elements per rank."
  },
  {
   "property": "C05",
   "status": "proved",
   "theorems": [
    "C05_push",
    "C05_rows",
    "C05_order",
    "C05_pull_push"
   ],
   "note": "As C04. Element-wise for arbitrary arrival orders; whole rows when messages are stored one after the other."
  },
  {
   "property": "C06",
   "status": "partial",
   "theorems": [
    "C06_setup_total",
    "C06_received",
    "C06_push_as_pull",
    "C06_lookup_partial",
    "C06_lookup_refuted"
   ],
   "note": "Delivery proved for every family of lists; lookups proved for ascending lists, where the mapping equals the pull-built one, and refuted for other lists (the received indices are searched by bisection but not sorted)."
  },
  {
   "property": "C07",
   "status": "partial",
   "theorems": [
    "C07_pull_completes_partial",
    "C07_push_completes_partial",
    "C07_push_one_by_one_refuted",
    "C07_pull_once_refuted",
    "C07_insitu_max_refuted",
    "C07_insitu_empty_refuted",
    "C07_insitu_push_once_refuted",
    "C07_insitu_created",
    "C07_insitu_pull_partial",
    "C07_insitu_pull_stuck_refuted",
    "C07_insitu_push_partial",
    "C07_insitu_push_last_refuted"
   ],
   "note": "Request scheduling: pull in both modes and push with Startall complete in every schedule, each message once. In-situ packing (layouts other than max, no empty message): after any history a pull in any message order makes every ghost current; a push writes back when the last rank holds ghosts of every rank. Refuted: one-by-one pushes can deadlock, one-by-one pullOnce communicates twice, in-situ packing is wrong for max layouts, never completes with an empty message, its push aborts unless the last rank has ghosts of every rank including itself, and its pushOnce always aborts. Missing: the property is false in these cases, so only the remaining ones are proved."
  },
  {
   "property": "C08",
   "status": "proved",
   "theorems": [
    "C08_history",
    "C08_compress_invisible",
    "C08_row_address",
    "C08_resize_after_empty_compress_refuted"
   ],
   "note": "Refinement to lists of rows for every history; the one history the class mishandles (resizing an empty array after it was compressed) is excluded from the hypothesis and shown by the _refuted theorem."
  },
  {
   "property": "C09",
   "status": "proved",
   "theorems": [
    "C09_history",
    "C09_offset",
    "C09_no_alias",
    "C09_narrowing_aliases_refuted",
    "C09_layout"
   ],
   "note": "Refinement for every history over all five layouts; narrowing a max-layout table below a kept row size is excluded and shown to alias by the _refuted theorem."
  },
  {
   "property": "C10",
   "status": "proved",
   "theorems": [
    "C10_isolation",
    "C10_copy",
    "C10_swap",
    "C10_swap_sizes_refuted",
    "C10_swap_mode_refuted",
    "C10_resize_depends_on_copies_refuted"
   ],
   "note": "Isolation for every history with copies. Swaps are proved for equal storage mode, width and row sizes; _refuted theorems show what happens otherwise."
  },
  {
   "property": "C11",
   "status": "proved",
   "theorems": [
    "C11_round_trip",
    "C11_signature",
    "C11_write_new_max_refuted",
    "C11_zero_rows_refuted",
    "C11_capacity_not_checked_refuted"
   ],
   "note": "JSON serializer, all five layouts, any history of calls, several arrays under distinct names, same layout or its static/dynamic form. Preconditions: max-layout arrays were resized once, fixed rows have non-zero length; what happens without them is in the _refuted theorems."
  },
  {
   "property": "C12",
   "status": "proved",
   "theorems": [
    "C12_pair_is_concatenation",
    "C12_reads_concatenation"
   ],
   "note": "Over the world of arrays of C08-C10: any layouts, any prior history, any sequence of assignments, row resizings and compressions through the pair. Serialization and transformer members of the pair are not part of this property."
  },
  {
   "property": "C13",
   "status": "proved",
   "theorems": [
    "C13_every_matrix_read_back",
    "C13_row_has_exact_size",
    "C13_matrices_do_not_overlap",
    "C13_assignment_stays_inside",
    "C13_unpackable_is_refused",
    "C13_other_shape_is_refused"
   ],
   "note": "Model of MatrixBatch and ArrayEigenMatrixBatch::InitializeWriteRow over 64-bit words with the bit fields of the headers. Any buffer, any batch, any sequence of same-size assignments."
  },
  {
   "property": "C14",
   "status": "proved",
   "theorems": [
    "C14_uniform_batches",
    "C14_empty_shape_refuted",
    "C14_common_shape_reported",
    "C14_own_shapes_reported",
    "C14_dynamic_columns_refuted",
    "C14_fixed_rows_not_resized_refuted",
    "C14_second_resize_refuted"
   ],
   "note": "Uniform batches: every history of covered calls; empty shapes excluded and shown to divide by zero. Matrix arrays: shapes reported as given where the code does so; three _refuted theorems give the cases where it does not."
  },
  {
   "property": "C15",
   "status": "partial",
   "theorems": [
    "C15_behaves_like_a_tree",
    "C15_reopened",
    "C15_create_and_go",
    "C15_go_to_current",
    "C15_go_and_back",
    "C15_read_what_was_written",
    "C15_tilde_name_refuted"
   ],
   "note": "JSON serializer: every sequence of create/go/write/read over good names behaves as on a tree, for the open document and for the reopened one; create+go, go-to-current, go-and-back and read-what-was-written as separate theorems. Names: non-empty, no slash, no tilde, not a number. A tilde in a name is refuted (json_pointer escape); numbers as names (nlohmann turns a null into an array) and the HDF5 serializer are not modelled."
  },
  {
   "property": "C16",
   "status": "partial",
   "theorems": [
    "C16_contents_and_sharing",
    "C16_stored_once",
    "C16_address_reuse_refuted",
    "C16_changed_vector_refuted",
    "C16_first_variable_refuted"
   ],
   "note": "JSON serializer. Proved for vectors that stay alive and unchanged while the file is open, places not overwritten, and pointer variables left alone on reading: contents, sharing, stored once. Refuted without these: address reuse, vector changed between writes, first pointer variable destroyed or reset before a later read. HDF5 not modelled."
  },
  {
   "property": "C17",
   "status": "proved",
   "theorems": [
    "C17_parts_tile",
    "C17_tiled_unique",
    "C17_read_back",
    "C17_other_rank_count",
    "C17_rewrite_at_places",
    "C17_one",
    "C17_collective_empty_part_refuted",
    "C17_known_place_refuted"
   ],
   "note": "Every size vector (sum within int64), every order of the ranks' writes, any further writes before the read. Datasets are lists; chunking, compression and element types not modelled. Two refutations: collective reads with an empty fresh vector, and reads with an already known place."
  },
  {
   "property": "C18",
   "status": "partial",
   "theorems": [
    "C18_never_two_owners",
    "C18_borrowed_is_not_pooled",
    "C18_return_puts_back",
    "C18_get_result",
    "C18_conserved_partial",
    "C18_move_assign_loses_object_refuted",
    "C18_resize"
   ],
   "note": "Proved for every sequence; conservation fails for move assignment onto a handle that owns an object (refuted theorem): the object is destroyed instead of returned."
  },
  {
   "property": "C19",
   "status": "proved",
   "theorems": [
    "C19_safe_add_int64",
    "C19_safe_add_int32",
    "C19_row_starts",
    "C19_divide_ceil",
    "C19_divCeil_refuted",
    "C19_divCeil_actual",
    "C19_mod",
    "C19_checked_narrowing",
    "C19_size_to_signed",
    "C19_check_uniform"
   ],
   "note": "divCeil is wrong as written (operator precedence): C19_divCeil_refuted shows it, C19_divCeil_actual says what it computes."
  },
  {
   "property": "C20",
   "status": "proved",
   "theorems": [
    "C20_iterate_identical",
    "C20_matches_are_all_common",
    "C20_split_join",
    "C20_join_split",
    "C20_has_suffix"
   ],
   "note": ""
  },
  {
   "property": "C21",
   "status": "partial",
   "theorems": [
    "C21_enum_timers_measure",
    "C21_only_that_timer",
    "C21_int_timers_measure_refuted",
    "C21_int_timers_use_enum_starts"
   ],
   "note": "Proved for timers named by enumerator; refuted for timers named by plain integers: StopTimer(int) reads the start time of the wrong slot."
  },
  {
   "property": "C22",
   "status": "proved",
   "theorems": [
    "C22_complete_solves",
    "C22_incomplete_solves",
    "C22_fails_only_at_pivots",
    "C22_product",
    "C22_phase_checked"
   ],
   "note": "LocalLUBase: for every symmetric adjacency, ordering, block ring and right-hand side, the complete factorization solves the system and the solution is unique; any level of fill solves a system that agrees with the given one on the stored pattern; no out-of-range access, failure only at a pivot; the product routine computes A x. InPlaceDecomposeV2 is not modelled."
  },
  {
   "property": "C23",
   "status": "proved",
   "theorems": [
    "C23_complete_solves",
    "C23_incomplete_solves",
    "C23_fails_only_at_pivots",
    "C23_product",
    "C23_phase_checked"
   ],
   "note": "LocalLDLTBase: for every symmetric adjacency, ordering and symmetric block matrix, the complete factorization solves the system uniquely; any level solves a system agreeing on the stored pattern; failure only at a pivot; the product routine computes A x."
  },
  {
   "property": "C24",
   "status": "proved",
   "theorems": [
    "C24_structure",
    "C24_transposed",
    "C24_adjacency_kept",
    "C24_complete_closed",
    "C24_level_zero",
    "C24_ordering_choice"
   ],
   "note": "All of the symbolic factorization, for every symmetric adjacency, ordering and fill level up to 5 (the code asserts the bound); barrier and log output left out."
  },
  {
   "property": "C25",
   "status": "proved",
   "theorems": [
    "C25_check_exact",
    "C25_refuses",
    "C25_permutation",
    "C25_bfs_distance",
    "C25_huge_graph_refuted"
   ],
   "note": "Every graph size and adjacency; the routine's own layer and part bounds are the loop bounds of the model. Size limit 2^31 is shown necessary (root passed through int)."
  },
  {
   "property": "C26",
   "status": "proved",
   "theorems": [
    "C26_defined_iff_bracket",
    "C26_bisection_brackets_target",
    "C26_error_bound_for_monotone"
   ],
   "note": "Real arithmetic; F arbitrary. Also shows the result is defined exactly under the documented precondition, and an error bound for monotone functions."
  },
  {
   "property": "C27",
   "status": "proved",
   "theorems": [
    "C27_bdf_history",
    "C27_bdf_refuses_other_step",
    "C27_vbdf_history"
   ],
   "note": "Runs of ImplicitBDF/ImplicitVBDF Step equal the specification that keeps the whole history, with arbitrary callbacks. Negative or zero steps of VBDF and LimitDt_StepPPV2 are not covered; reals instead of doubles."
  },
  {
   "property": "C28",
   "status": "proved",
   "theorems": [
    "C28_bdf_exact",
    "C28_vbdf_first_step_exact",
    "C28_vbdf_exact",
    "C28_vbdf_is_bdf_at_constant_step"
   ],
   "note": "Exactness of the formulas that C27 shows the steps to use; constant-step VBDF runs equal BDF runs. Reals instead of doubles."
  },
  {
   "property": "C29",
   "status": "partial",
   "theorems": [
    "C29_sdirk_consistent",
    "C29_esdirk_consistent",
    "C29_sdirk_exact",
    "C29_euler_exact",
    "C29_esdirk_exact_refuted",
    "C29_esdirk_nearly_exact_partial",
    "C29_hermite_exact",
    "C29_hermite_three_point_exact_partial",
    "C29_hermite_first_step_refuted",
    "C29_hermite_interpolation",
    "C29_ssprk3_exact_refuted",
    "C29_ssprk3_linear_partial"
   ],
   "note": "SDIRK4, backward Euler and Hermite3 (masks 0, 1) proved exact for x'=f(t) in any run. Refuted: ESDIRK4 (off by 2e-8, mistyped a53/c5; bound proved), first step of Hermite3 mask 2 (weights of alpha=0.25, evaluation at alphaHM3), SSPRK3 stage times. StepNested is not modelled; reals instead of doubles."
  },
  {
   "property": "C30",
   "status": "partial",
   "theorems": [
    "C30_bdf_steppp_is_step_refuted",
    "C30_vbdf_steppp_is_step_refuted",
    "C30_bdf_steppp_ignores_rhs",
    "C30_vbdf_steppp_ignores_rhs",
    "C30_bdf_steppp_history_partial",
    "C30_bdf_steppp_is_deaf_step",
    "C30_vbdf_steppp_is_stale_step"
   ],
   "note": "Refuted for both steppers: StepPP ignores the right-hand side (ODE.hpp 459 and 728). What holds: the histories agree, and the step is exactly the one of a solver that never sees the new right-hand side."
  },
  {
   "property": "C31",
   "status": "partial",
   "theorems": [
    "C31_gmres_success_refuted",
    "C31_gmres_success_partial",
    "C31_gmres_residual_never_rises",
    "C31_pcg_success",
    "C31_pcg_energy_never_rises"
   ],
   "note": "GMRES success is refuted in general (a breakdown of the Arnoldi process is reported as success with the residual unreduced) and characterised otherwise; the residual never rises. PCG: success means the stop test accepts the residual recomputed at the returned point, and the energy never rises over any sequence of calls. Convergence itself and rounding are not modelled."
  },
  {
   "property": "C32",
   "status": "proved",
   "theorems": [
    "C32_point_there_and_back",
    "C32_other_ids_refused",
    "C32_vectors_there_and_back",
    "C32_tensor_there_and_back",
    "C32_vector_is_difference_of_points",
    "C32_tensor_acts_equivariantly",
    "C32_distances_preserved",
    "C32_two_sides_are_inverse",
    "C32_face_points_move_with_the_side0_cell",
    "C32_bits_apply_unapply_points",
    "C32_bits_apply_unapply_vectors",
    "C32_bit_reduction",
    "C32_collaborative_bits"
   ],
   "note": "Real arithmetic. Dimension 2 needs the 2x2 block of the rotation to be orthogonal."
  },
  {
   "property": "C33",
   "status": "proved",
   "theorems": [
    "C33_ids_classify_exclusively",
    "C33_ids_below_range_are_unclassified",
    "C33_internal_is_not_external",
    "C33_periodic_ids_split",
    "C33_name_tables_agree",
    "C33_unknown_names_get_unknown_id",
    "C33_known_names",
    "C33_numbering_map_is_injective"
   ],
   "note": "Ids below -6 belong to no class (shown). unordered_map modelled by its pair list."
  },
  {
   "property": "C34",
   "status": "proved",
   "theorems": [
    "C34_sends_assigned",
    "C34_bijection",
    "C34_landing",
    "C34_total",
    "C34_moved",
    "C34_relation",
    "C34_mesh",
    "C34_node_partition",
    "C34_bnd_partition"
   ],
   "note": "Partition2LocalIdx, Partition2Serial2Global, ConvertAdjSerial2Global, TransferDataSerial2Global, node partition and the whole of PartitionReorderToMeshCell2Cell on all ranks: bijection, landing, preservation of data and relations, success for every valid partition. PushInfo2Serial2Global (comparison only) is not modelled."
  },
  {
   "property": "C35",
   "status": "proved",
   "theorems": [
    "C35_entry_roundtrip",
    "C35_entry_range",
    "C35_local_roundtrip",
    "C35_primary",
    "C35_facial",
    "C35_cell2face",
    "C35_noson",
    "C35_node2cell",
    "C35_ghosts_resolve",
    "C35_mesh",
    "C35_states_checked",
    "C35_nodes_checked",
    "C35_noson_checked"
   ],
   "note": "Per-rank conversions of every relation (cell2cell, bnd2cell, cell2node, bnd2node, face2node, face2cell, cell2face, node2cell, node2bnd), the ghost set-up of BuildGhostPrimary on all ranks, and their composition. The row-level effect of a pull is used (proved for the exchange in C04). Indices equal to INT64_MAX excluded (coded as unset)."
  },
  {
   "property": "C36",
   "status": "proved",
   "theorems": [
    "C36_inverse",
    "C36_total"
   ],
   "note": "GeneralCell2NodeToNode2Cell on all ranks, for every order of the unordered sets; used for cells and boundaries alike. Row-level effect of a pull taken from C04. That the function succeeds on valid input is shown by example only."
  },
  {
   "property": "C37",
   "status": "proved",
   "theorems": [
    "C37_recovered",
    "C37_symmetric",
    "C37_total"
   ],
   "note": "RecoverCell2CellAndBnd2Cell up to line 772 (the later reordering of the two cells of a periodic boundary is not modelled)."
  },
  {
   "property": "C38",
   "status": "proved",
   "theorems": [
    "C38_sides_pair",
    "C38_three_sides_stop",
    "C38_numbering",
    "C38_lower_rank_owns",
    "C38_numbered_faces_kept",
    "C38_cells_renumbered"
   ],
   "note": "InterpolateFace lines 1340-1531 (sides, pairing, numbering and sending of faces). The shift test is modelled on sorted node/bit pairs. Not modelled: face lookup of boundaries, ghost faces of cell2face, AssertOnFaces."
  },
  {
   "property": "C39",
   "status": "proved",
   "theorems": [
    "C39_merge",
    "C39_bits",
    "C39_geometry",
    "C39_quadratic_donors_refused"
   ],
   "note": "Merging of periodic nodes: dense numbering, resolution, donors and mains alike; the periodic bits; the geometry of the cells. Not modelled: the nearest-neighbour matching of the faces (14-176)."
  },
  {
   "property": "C40",
   "status": "proved",
   "theorems": [
    "C40_one_to_one",
    "C40_mesh_preserved"
   ],
   "note": "ReorderLocalCells on all ranks in global numbers, any permutation per rank: all relations, ghosts and ghost rows. The conversions to global numbers and back around it are C35; that RCM yields a permutation is C32."
  },
  {
   "property": "C41",
   "status": "partial",
   "theorems": [
    "C41_agreement_refuted",
    "C41_O1_local_partial",
    "C41_O2_local_partial",
    "C41_O1_all_ranks",
    "C41_O2_all_ranks"
   ],
   "note": "Refuted as stated: each rank returns its own flag, the reduced one is dropped. Proved: the answer is exact for the rank's own cells, and all ranks say yes iff the whole mesh is of that order."
  },
  {
   "property": "C42",
   "status": "proved",
   "theorems": [
    "C42_faces_well_formed",
    "C42_boundary_closed",
    "C42_boundary_cycle_2d",
    "C42_edges_have_midnodes",
    "C42_euler",
    "C42_second_order_faces",
    "C42_faces_outward",
    "C42_standard_coordinates",
    "C42_standard_volume",
    "C42_bisection_volume",
    "C42_bisection_conforming",
    "C42_bisection_conforming_2d",
    "C42_bisection_of_shared_face"
   ],
   "note": "All tables transcribed by script; all element types, all node labellings for faces and closedness; geometry in the standard coordinates. Node choice by distance (GetO2ElemBisectVariant) and the VTK export are not part of it."
  },
  {
   "property": "C43",
   "status": "proved",
   "theorems": [
    "C43_partition_of_unity",
    "C43_nodal",
    "C43_nodal_at_apex_partial",
    "C43_nodal_at_apex_refuted",
    "C43_linear_fields",
    "C43_linear_fields_everywhere",
    "C43_quadratic_fields",
    "C43_derivatives",
    "C43_every_row_is_a_derivative",
    "C43_gradient"
   ],
   "note": "All fourteen element types, all points, derivatives up to the third order; near the apex of a pyramid the code moves the point by 1e-15, so the nodal property there holds up to 1e-14 and its exact form is refuted."
  },
  {
   "property": "C44",
   "status": "proved",
   "theorems": [
    "C44_minmod_between",
    "C44_minmod_symmetries",
    "C44_van_leer_bounds",
    "C44_van_leer_symmetries",
    "C44_van_leer_below_both_refuted",
    "C44_wbap_average",
    "C44_wbap_bound",
    "C44_wbap_within_data_refuted",
    "C44_wbap_symmetries",
    "C44_wbap_cut",
    "C44_wbap_multiway",
    "C44_wbap_multiway_symmetries",
    "C44_polynomial_average",
    "C44_orthonormal_average",
    "C44_polynomial_multiway_bound",
    "C44_orthonormal_multiway_bound",
    "C44_norm_rotation_2d",
    "C44_norm_rotation_3d",
    "C44_least_norm",
    "C44_least_norm_multiway",
    "C44_least_norm_multiway_picks"
   ],
   "note": "Over the reals, entry by entry or column by column; rounding and NaN not modelled. The claims that van Leer stays below the smaller argument and that the biased average never exceeds the data are refuted; the true bounds are proved."
  },
  {
   "property": "C45",
   "status": "proved",
   "theorems": [
    "C45_primitive_and_back",
    "C45_conservative_and_back",
    "C45_pressure_of_the_thermal_relation"
   ],
   "note": ""
  },
  {
   "property": "C46",
   "status": "proved",
   "theorems": [
    "C46_left_right_inverse_3d",
    "C46_right_left_inverse_3d",
    "C46_left_right_inverse_2d",
    "C46_right_left_inverse_2d",
    "C46_thermal_condition",
    "C46_columns_are_eigenvectors"
   ],
   "note": ""
  },
  {
   "property": "C47",
   "status": "partial",
   "theorems": [
    "C47_roe_family_consistent",
    "C47_hllep_consistent",
    "C47_hllc_consistent_partial",
    "C47_hllc_consistent_moving_refuted",
    "C47_roe_family_conservative",
    "C47_hllc_conservative_partial",
    "C47_hllc_conservative_refuted",
    "C47_hllep_conservative_and_upwind_refuted",
    "C47_roe_upwind_right",
    "C47_roe_upwind_left",
    "C47_lax_and_cllf_upwind_refuted",
    "C47_hllc_upwind",
    "C47_hllep_upwind_right_partial",
    "C47_hllep_v1_upwind_right"
   ],
   "note": "Proved for the Roe family (consistency, conservation; upwinding for Roe, M3, M4). HLLC is inconsistent on moving faces and not conservative for colliding supersonic streams; HLLEP is neither conservative nor upwind for supersonic flow to the left; M1, M2, M5 are not upwind: all four refuted with concrete states. HLLC conservation proved away from those cases. Batch variants not modelled."
  },
  {
   "property": "C48",
   "status": "proved",
   "theorems": [
    "C48_ratio_in_range_and_floor_met",
    "C48_convex_estimate_returns",
    "C48_quadratic_estimate_returns"
   ],
   "note": "Internal energy as the code computes it, with the density regularised by verySmallReal."
  },
  {
   "property": "C49",
   "status": "proved",
   "theorems": [
    "C49_velocity_increment",
    "C49_pressure_increment",
    "C49_flux_increment",
    "C49_gradient_of_primitives",
    "C49_primitive_is_the_conversion"
   ],
   "note": "Derivatives are those of the standard library, along any curve of states."
  },
  {
   "property": "C50",
   "status": "proved",
   "theorems": [
    "C50_statistics_are_exact"
   ],
   "note": "Real arithmetic."
  },
  {
   "property": "C51",
   "status": "proved",
   "theorems": [
    "C51_derivatives_3D",
    "C51_derivatives_2D",
    "C51_tables",
    "C51_index_3D",
    "C51_index_2D",
    "C51_combinations_3D",
    "C51_combinations_2D",
    "C51_axes",
    "C51_ndof"
   ],
   "note": "Both dimensions, all matrix sizes up to the tables, as real functions; derivatives are limits of the standard library."
  },
  {
   "property": "C52",
   "status": "proved",
   "theorems": [
    "C52_polynomials_are_integrated",
    "C52_points_inside_weights_positive",
    "C52_unsupported_order_refuted"
   ],
   "note": "Accuracy for every polynomial up to the order on every reference element, with exact real integrals; points inside, weights positive. Refuted for orders outside 0..6: the sum is silently empty. The table digits are modelled as rationals; floating-point rounding is not modelled."
  },
  {
   "property": "C53",
   "status": "proved",
   "theorems": [
    "C53_face_covered_once",
    "C53_area_is_that_of_the_rim",
    "C53_line_is_a_chain",
    "C53_line_covered_once",
    "C53_rule_without_points_refuted"
   ],
   "note": "All face types and orders; a rule without points (unsupported order) is a separate refutation."
  },
  {
   "property": "C54",
   "status": "proved",
   "theorems": [
    "C54_row_is_the_global_balance",
    "C54_conservative",
    "C54_threads_agree",
    "C54_threads_one_cell_period_refuted",
    "C54_uniform_flow_stays",
    "C54_wall_force_counts_once",
    "C54_wall_of_another_rank_is_refused",
    "C54_frames",
    "C54_face_flux_is_the_quadrature",
    "C54_constant_flux_times_area"
   ],
   "note": "The assembly from the fluxes at the integration points on; the fluxes themselves are inputs (see C47). The refuted theorem shows the gathering build with threads is wrong for a cell that is its own periodic neighbour."
  },
  {
   "property": "C55",
   "status": "partial",
   "theorems": [
    "C55_linear_map",
    "C55_linear_map_refuses",
    "C55_inner_product_is_contraction",
    "C55_rotation_keeps_inner_product",
    "C55_periodic_derivatives",
    "C55_periodic_roundtrip",
    "C55_periodic_refuses",
    "C55_full_map_partial",
    "C55_full_map_refuted",
    "C55_inverse_map"
   ],
   "note": "The conversion for general coordinates is proved only for first derivatives and for coordinates without higher derivatives (C55_full_map_partial) and refuted beyond (C55_full_map_refuted: first derivatives are overwritten before the second ones use them). Everything else in the statement is proved. Real arithmetic; Eigen's inverse is any inverse."
  },
  {
   "property": "C56",
   "status": "proved",
   "theorems": [
    "C56_difference_along",
    "C56_solved_difference_is_fixed",
    "C56_relaxation_fixed_iff",
    "C56_operator_symmetric",
    "C56_relaxation_solves_refuted",
    "C56_relaxation_following_walls_refuted",
    "C56_base_values_are_derivatives",
    "C56_base_functions_have_zero_mean",
    "C56_reconstruction_keeps_mean",
    "C56_face_functional",
    "C56_face_functional_inner_product",
    "C56_coefficients_built",
    "C56_no_jumps_is_fixed",
    "C56_polynomials_have_coefficients",
    "C56_polynomials_are_fixed",
    "C56_reconstruction_differentiable",
    "C56_fixed_iff_minimal",
    "C56_sweep_never_increases_jumps",
    "C56_sweep_extrapolated_walls_refuted",
    "C56_weighed_wall_derivatives_refuted",
    "C56_zero_flag_same_refuted"
   ],
   "note": "Real arithmetic, greenGauss1Weight 0, not the second order substitute. Polynomial reproduction needs derivative weights 0 at external boundaries. Relaxation is for a right-hand side times the factor, and in place only for boundary values that do not follow the reconstruction: the stronger claims are refuted."
  },
  {
   "property": "C57",
   "status": "proved",
   "theorems": [
    "C57_face_value_not_negative",
    "C57_face_value_positive_refuted",
    "C57_increment_keeps_physical",
    "C57_increment_turbulence",
    "C57_increment_always_returns_refuted",
    "C57_added_increment_passes_check_refuted",
    "C57_increment_limiter",
    "C57_zero_power_refuted",
    "C57_update_passes_check",
    "C57_turbulence_relaxation_refuted",
    "C57_expansion",
    "C57_smoothed_time_step",
    "C57_limited_reconstruction_physical",
    "C57_limited_reconstruction_returns",
    "C57_limited_one_equation_refuted",
    "C57_limited_two_equations_refuted"
   ],
   "note": "For every state, increment, polynomial and number of ranks. Seven clauses a user would expect are false of the code and refuted: zero density at a face, the fix-up near its bound, an added increment refused by the check, a zero exponent, the turbulence relaxation that scales the energy, and the turbulence variables of limited reconstructions for both kinds of model."
  },
  {
   "property": "C58",
   "status": "proved",
   "theorems": [
    "C58_matrix_vector",
    "C58_lusgs",
    "C58_lusgs_fresh",
    "C58_lusgs_linear",
    "C58_sweep",
    "C58_jacobi",
    "C58_precondition",
    "C58_converges",
    "C58_lu",
    "C58_lu_one_rank",
    "C58_with_reconstruction",
    "C58_same_residual_everywhere_refuted",
    "C58_own_neighbour_refuted",
    "C58_two_common_faces_refuted"
   ],
   "note": "Over any block operators and several ranks; refuted: equal residuals on all ranks with reconstruction, a cell that is its own neighbour, two cells with two common faces in the block LU."
  },
  {
   "property": "C59",
   "status": "proved",
   "theorems": [
    "C59_product_is_linear",
    "C59_matrix_is_the_product",
    "C59_central_part_is_the_derivative_of_the_flux",
    "C59_written_out_matrix",
    "C59_row_is_the_derivative",
    "C59_row_is_the_derivative_roe",
    "C59_uniform",
    "C59_conservation",
    "C59_conservation_roe",
    "C59_roe_dissipation_from_both_sides",
    "C59_equal_speeds",
    "C59_turned_block",
    "C59_turned_with_points"
   ],
   "note": "The product with the face Jacobian, its matrix, the derivative of the implicit residual with frozen dissipation, conservation over a boundary-free mesh, Roe's term from both sides, and blocks through periodic faces."
  },
  {
   "property": "C60",
   "status": "partial",
   "theorems": [
    "C60_slip_state",
    "C60_slip_wall_is_tight",
    "C60_hllc_slip_wall_is_tight_partial",
    "C60_hll_slip_wall_leaks_refuted",
    "C60_wall_state",
    "C60_wall_turbulence",
    "C60_wall_is_tight",
    "C60_frame_change",
    "C60_free_stream",
    "C60_far_field",
    "C60_far_state_given",
    "C60_far_state_turned_back",
    "C60_inlet_and_outlet",
    "C60_outlet_pressure",
    "C60_far_positive",
    "C60_stagnation_inlet"
   ],
   "note": "The wall, far-field and inlet theorems hold for the Roe solvers; HLLC only below the speed of sound in a frame at rest (C60_hllc_slip_wall_is_tight_partial), and HLLC and HLLEP leak otherwise (C60_hll_slip_wall_leaks_refuted). The built-in test-case boundary states are not modelled."
  },
  {
   "property": "C61",
   "status": "partial",
   "theorems": [
    "C61_turned",
    "C61_moving",
    "C61_roe_moving_partial",
    "C61_roe_moving_refuted",
    "C61_hllc_moving_refuted"
   ],
   "note": "Turning and mirroring proved for all nine solvers. Uniform motion proved for Roe_M1 to Roe_M5, HLLEP and HLLEP_V1, and for Roe while its entropy fix does not act; false of the code for Roe with the fix acting and for HLLC (refuted)."
  },
  {
   "property": "C62",
   "status": "partial",
   "theorems": [
    "C62_axis_turns_are_rotations",
    "C62_axis_turns_add",
    "C62_zero_turn_is_identity",
    "C62_quarter_turns",
    "C62_any_axis_is_rotation",
    "C62_opposite_axis_undoes",
    "C62_any_axis_angle",
    "C62_agrees_with_axis_turn",
    "C62_any_axis_adds_partial",
    "C62_any_axis_adds_refuted",
    "C62_cross_matrix",
    "C62_cross_matrix_back",
    "C62_local_base3",
    "C62_local_base2",
    "C62_face_normal3",
    "C62_face_normal3_accepts",
    "C62_face_normal2",
    "C62_face_normal2_accepts"
   ],
   "note": "All proved; adding of turns about an arbitrary axis only when all angles are at least smallReal, since smaller turns are dropped (refuted in general)."
  },
  {
   "property": "C63",
   "status": "partial",
   "theorems": [
    "C63_accepts",
    "C63_reads",
    "C63_reads_flags",
    "C63_reads_nothing_else",
    "C63_built_in_types",
    "C63_inner_faces_have_no_type",
    "C63_reads_in_pieces",
    "C63_demanded_flags_present",
    "C63_default_flags_present_refuted",
    "C63_default_ids_in_rotating_frame_refuted",
    "C63_round_trip_partial",
    "C63_written_settings_stable",
    "C63_round_trip_refuted",
    "C63_default_name",
    "C63_default_name_unique_refuted"
   ],
   "note": "All proved for configured conditions; the round trip only when the integration option of far fields, outlets, inlets and symmetry planes is zero, since to_json drops it (refuted); built-in ids lack the demanded flags, which stops rotating-frame runs (refuted)."
  },
  {
   "property": "C64",
   "status": "partial",
   "theorems": [
    "C64_history_kept",
    "C64_angle_changes_when_settled",
    "C64_converged_means",
    "C64_linear_lift_reaches_target",
    "C64_inflow_turned",
    "C64_coefficients",
    "C64_force_configured",
    "C64_force_default_partial",
    "C64_force_default_is_all_walls",
    "C64_force_counted_twice_refuted",
    "C64_force_of_other_walls_refuted",
    "C64_on_target_is_stable_refuted",
    "C64_long_threshold_refuted",
    "C64_two_dimensional_y_refuted"
   ],
   "note": "History, step, convergence test, linear response, inflow direction, coefficients and the force on configured boundaries proved; refuted: exact hits on the target give a NaN angle, the long threshold is truncated to an integer, default walls are counted once per name and include unnamed walls, and the y axis shortens the inflow in two dimensions."
  },
  {
   "property": "C65",
   "status": "partial",
   "theorems": [
    "C65_faces_shared_out",
    "C65_nothing_lost",
    "C65_ranks_agree",
    "C65_bin_is_average",
    "C65_reading_bounded",
    "C65_reading_at_ends",
    "C65_radial_equilibrium",
    "C65_pressure_grows",
    "C65_solid_body_exact",
    "C65_nearest_anchor",
    "C65_anchor_defined",
    "C65_integral_is_sum",
    "C65_nodes_graded",
    "C65_first_interval",
    "C65_thin_face_refuted",
    "C65_gap_refuted",
    "C65_no_anchor_refuted",
    "C65_reduce_idempotent_refuted"
   ],
   "note": "Sharing, totals, independence of the ranks, averages, bounds and ends of reading, radial equilibrium, anchors, integrals and graded nodes proved; refuted: a face of zero extent and an uncovered bin give NaN, no anchor leaves the value unset, reducing an integral twice multiplies it."
  },
  {
   "property": "C66",
   "status": "partial",
   "theorems": [
    "C66_old_nodes_stay",
    "C66_numbers",
    "C66_every_node",
    "C66_shared",
    "C66_distinct",
    "C66_cell_nodes_distinct",
    "C66_places_agree",
    "C66_in_the_middle",
    "C66_near_the_middle",
    "C66_in_the_middle_periodic",
    "C66_succeeds",
    "C66_boundary",
    "C66_two_layers_refuted",
    "C66_one_layer_refuted",
    "C66_smooth_edge_symmetric",
    "C66_smooth_face_symmetric",
    "C66_smooth_keeps_straight",
    "C66_smooth_keeps_flat",
    "C66_smooth_tangent",
    "C66_smooth_close"
   ],
   "note": "Elevation is modelled over global numbers with real coordinates; the collection of normals and the elastic solve that moves inner nodes are not modelled, only the midpoint formulas. Two refuted theorems show that two layers in a periodic direction are not enough."
  },
  {
   "property": "C67",
   "status": "proved",
   "theorems": [
    "C67_sizes",
    "C67_piece",
    "C67_nothing_else",
    "C67_piece_sound",
    "C67_every_node",
    "C67_places",
    "C67_inside_or_skin",
    "C67_not_both",
    "C67_unique",
    "C67_skin",
    "C67_shortest",
    "C67_diagonal",
    "C67_conform",
    "C67_boundary",
    "C67_succeeds",
    "C67_equal_pieces",
    "C67_total_volume",
    "C67_elevated",
    "C67_refined_fit"
   ],
   "note": "Sizes, pieces, fitting within and across cells, shortest diagonal, boundary, success, shares of the volume, and the composition with elevation."
  },
  {
   "property": "C68",
   "status": "partial",
   "theorems": [
    "C68_hexahedra_converted",
    "C68_counts",
    "C68_cell_recovered",
    "C68_inner_face_shared",
    "C68_boundary",
    "C68_boundary_faces_its_cell",
    "C68_only_six_quadrilaterals",
    "C68_broken_cell_refused_refuted",
    "C68_wrong_face_refused_refuted"
   ],
   "note": "Proved: meshes of hexahedra are converted, cells, inner faces, boundary elements and zones are right, other cells are refused. Refuted: six quadrilaterals that do not close, or one turned the wrong way, are accepted. The parsing of the text files is not modelled."
  },
  {
   "property": "C69",
   "status": "partial",
   "theorems": [
    "C69_export_partial",
    "C69_corners",
    "C69_sharing",
    "C69_all_nodes",
    "C69_library",
    "C69_vectors_refuted",
    "C69_rebuild_refuted",
    "C69_every_node_refuted"
   ],
   "note": "Export succeeds in every order of writes and the file shows the mesh (points, copies, cells in VTK order, sharing, values) for all distributions, periodic or not. Not all of the wish holds: vectors at moved points are not turned, a second build of the connectivity breaks the file, and middle nodes of faces and cells are not drawn (refuted). HDF5 itself is modelled as slabs of a list."
  },
  {
   "property": "C70",
   "status": "partial",
   "theorems": [
    "C70_clock_partial",
    "C70_timed",
    "C70_reaches",
    "C70_paced",
    "C70_numbered",
    "C70_held",
    "C70_completes_partial",
    "C70_steady",
    "C70_clock_refuted",
    "C70_scheme_refuted",
    "C70_averages_refuted",
    "C70_restart_refuted",
    "C70_interval_refuted"
   ],
   "note": "Clock, timed files, numbered files, contents, pacing, reaching the end and completion are proved for sane settings. False in the code and refuted: the clock is the sum of the steps (VBDF positivity step shortens after the output time was fixed), accepted settings complete (scheme 1 with the positivity step uses a null pointer; average files asked for while none are kept stop the run), a restarted run goes on, a zero interval between timed files."
  },
  {
   "property": "C71",
   "status": "partial",
   "theorems": [
    "C71_labels",
    "C71_faces",
    "C71_points",
    "C71_negative",
    "C71_boundary",
    "C71_surplus",
    "C71_count_refuted",
    "C71_cut_refuted",
    "C71_comment_refuted",
    "C71_blanks_refuted",
    "C71_size_refuted",
    "C71_stuck_refuted"
   ],
   "note": "Labels, faces, points and patches are read as written for every file in the grammar, and lists longer than their count are refused. The refusal of other bad files is false of the code: counts that are too large, files cut short, comments closed by two stars or opened by /*/, blanks in an empty list, a comment before the first item, wrong sizes of faces and coordinates that are not numbers are misread (the _refuted theorems)."
  },
  {
   "property": "C72",
   "status": "partial",
   "theorems": [
    "C72_stops",
    "C72_written_partial",
    "C72_ramp",
    "C72_ramp_rises",
    "C72_resets",
    "C72_extra_refuted",
    "C72_length_refuted",
    "C72_early_refuted"
   ],
   "note": "Stopping, ramp, reset and the iterations at which lines and files are written are proved for all settings without zero intervals, with a ramp that is off or has a positive length and end and fits an int. False of the code (the _refuted theorems): each line belongs to an iteration performed, no accepted ramp fails, and the ramp holds for schemes that go on after a stop."
  },
  {
   "property": "C73",
   "status": "partial",
   "theorems": [
    "C73_log",
    "C73_unique",
    "C73_integrals",
    "C73_count_refuted",
    "C73_title_refuted",
    "C73_integer_refuted"
   ],
   "note": "Reading back is proved for all titles without separators and all histories, and so are the tables of the boundaries. The line of a time step shows the count of all iterations as of the last inner line: that it shows the count of its own moment is refuted. Titles with a comma and the smallest integer are refuted as well. Printing of floating-point numbers is a parameter."
  },
  {
   "property": "C74",
   "status": "partial",
   "theorems": [
    "C74_overwrite",
    "C74_user",
    "C74_default",
    "C74_alone",
    "C74_complete",
    "C74_removed",
    "C74_accepts",
    "C74_pointer",
    "C74_spelled",
    "C74_unknown_refuted",
    "C74_gap_refuted",
    "C74_list_refuted"
   ],
   "note": "Precedence, completeness, acceptance and the spelling of keys are proved for all documents. That misspelt keys are refused, that overwriting past the end of a list makes nothing new beside it and that lists keep the rest of their defaults are refuted. Parsing of texts and conversion to types are not modelled; the JSON library is modelled from its documentation."
  },
  {
   "property": "C75",
   "status": "partial",
   "theorems": [
    "C75_restored",
    "C75_earlier",
    "C75_names",
    "C75_crash_partial",
    "C75_before",
    "C75_crash_refuted",
    "C75_waiting",
    "C75_cover_refuted",
    "C75_mixed_refuted",
    "C75_count",
    "C75_misplaced",
    "C75_format",
    "C75_other",
    "C75_other_refused",
    "C75_negative_refuted"
   ],
   "note": "C75_restored, C75_earlier, C75_names, C75_count, C75_format, C75_other and C75_other_refused hold in full. The claim about crashes is proved for HDF5 with a name not in use (C75_crash_partial), up to the printing of the settings (C75_before), and for one file per rank if rank 0 waited for the others (C75_waiting). It is false for one file per rank as written, since rank 0 prints the settings before the others have written (C75_crash_refuted), and for a name written over, as the file ending in C is (C75_cover_refuted, C75_mixed_refuted). A negative component is not refused (C75_negative_refuted). The inside of an HDF5 write is not broken up by rank."
  }
 ]
}