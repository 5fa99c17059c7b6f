{
 "claims": [
  {
   "property": "C01",
   "status": "proved",
   "theorems": [
    "c01_id_to_indices_and_back",
    "c01_indices_to_id_and_back",
    "c01_documented_numbering",
    "c01_shifts_defined"
   ],
   "note": "id <-> (level, indices) bijection for every mapping whose last id fits in 64 bits, wrap-around modelled"
  },
  {
   "property": "C02",
   "status": "proved",
   "theorems": [
    "c02_cells_of_a_level_tile_the_grid"
   ],
   "note": ""
  },
  {
   "property": "C03",
   "status": "proved",
   "theorems": [
    "c03_children",
    "c03_children_of_finest_cell",
    "c03_coarsest_and_finest_cells"
   ],
   "note": ""
  },
  {
   "property": "C04",
   "status": "proved",
   "theorems": [
    "c04_level_0_parent"
   ],
   "note": ""
  },
  {
   "property": "C05",
   "status": "partial",
   "theorems": [
    "c05_invalid_ids_are_errors",
    "c05_cell_from_indices_error_iff",
    "c05_errors_only_for_invalid",
    "c05_children_of_error_cell",
    "c05_children_of_invalid_id_refuted"
   ],
   "note": "all functions except get_all_children for ids above the last cell, for which the documented behaviour is refuted"
  },
  {
   "property": "C06",
   "status": "proved",
   "theorems": [
    "c06_coarser_ids_are_smaller",
    "c06_level_is_contiguous_range",
    "c06_ids_ordered_by_z_y_x"
   ],
   "note": ""
  },
  {
   "property": "C07",
   "status": "partial",
   "theorems": [
    "c07_zero_length_refused",
    "c07_refusal_changes_nothing",
    "c07_fitting_length_accepted",
    "c07_accepted_length_fits_refuted"
   ],
   "note": "overflow claim refuted (the code checks the sum of lengths instead of the product); atomicity, zero check and acceptance of all fitting lengths proved"
  },
  {
   "property": "C08",
   "status": "partial",
   "theorems": [
    "c08_level_limit_partial",
    "c08_never_above_21",
    "c08_accepted_level_fits_refuted"
   ],
   "note": "exact limit refuted by rounding; limit within 2^13 cells of 2^64 proved"
  },
  {
   "property": "C09",
   "status": "partial",
   "theorems": [
    "c09_setters_atomic",
    "c09_length_then_level_partial",
    "c09_any_order_refuted",
    "c09_negative_level_refuted"
   ],
   "note": "refuted for arbitrary call order and for negative levels; proved for length followed by non-negative level"
  },
  {
   "property": "C10",
   "status": "partial",
   "theorems": [
    "c10_bits_compare_as_doubles",
    "c10_cartesian_accepted",
    "c10_cartesian_positive",
    "c10_cartesian_nan_refuted",
    "c10_stretched_accepted",
    "c10_stretched_increasing",
    "c10_stretched_nan_refuted",
    "c10_mapping_round_trip",
    "c10_topology_round_trip",
    "c10_geometry_round_trip",
    "c10_wrong_geometry_refused",
    "c10_short_streams_refused",
    "c10_truncated_refused_refuted",
    "c10_default_stretched_refuted",
    "c10_length_after_level_refuted"
   ],
   "note": "round trips of mapping, topology and all geometries proved for all values and surrounding bytes; wrong tags and short streams refused; refuted: truncated files are accepted by the MPI reads, a stretched geometry whose coordinates were never set writes bytes that no grid of that size reads, and a length set after a large maximum level writes bytes that are refused on reading; which bits a geometry accepts is stated with IEEE 754 comparisons (c10_cartesian_accepted, c10_stretched_accepted), refuted for lengths and coordinates that are not numbers, which are accepted"
  },
  {
   "property": "C11",
   "status": "proved",
   "theorems": [
    "c11_default_neighborhood"
   ],
   "note": ""
  },
  {
   "property": "C12",
   "status": "proved",
   "theorems": [
    "c12_add_neighborhood",
    "c12_remove_neighborhood",
    "c12_histories"
   ],
   "note": ""
  },
  {
   "property": "C13",
   "status": "partial",
   "theorems": [
    "c13_indices_from_neighborhood",
    "c13_huge_grid_refuted"
   ],
   "note": "proved whenever no product of offset and cell length overflows 64 bits; refuted for grids so long that it does"
  },
  {
   "property": "C14",
   "status": "proved",
   "theorems": [
    "c14_neighbors_of"
   ],
   "note": ""
  },
  {
   "property": "C15",
   "status": "proved",
   "theorems": [
    "c15_neighbors_to",
    "c15_converse"
   ],
   "note": "for neighborhoods whose reach beyond a non-periodic grid end stays below 2^64 indices"
  },
  {
   "property": "C16",
   "status": "proved",
   "theorems": [
    "c16_face_neighbors"
   ],
   "note": ""
  },
  {
   "property": "C17",
   "status": "partial",
   "theorems": [
    "c17_remote_cell_refuted",
    "c17_neighbors_of_existing_cells"
   ],
   "note": "refuted: lists are returned for every existing cell, local or not, and these lists are exact (proved); only unknown cells get none"
  },
  {
   "property": "C18",
   "status": "proved",
   "theorems": [
    "c18_cells_always_tile_the_grid",
    "c18_every_call_succeeds"
   ],
   "note": "all reachable histories of calls; the partitioner may answer anything consistent"
  },
  {
   "property": "C19",
   "status": "proved",
   "theorems": [
    "c19_neighbors_differ_by_at_most_one_level"
   ],
   "note": ""
  },
  {
   "property": "C20",
   "status": "proved",
   "theorems": [
    "c20_commit_ends_requests",
    "c20_refine_requests_are_honoured",
    "c20_refined_only_if_asked_or_forced",
    "c20_no_protection_without_dont_refine"
   ],
   "note": ""
  },
  {
   "property": "C21",
   "status": "proved",
   "theorems": [
    "c21_dont_refine_protects"
   ],
   "note": ""
  },
  {
   "property": "C22",
   "status": "partial",
   "theorems": [
    "c22_dont_refine_lasts_only_until_the_next_commit_refuted",
    "c22_protection_ends_with_balancing"
   ],
   "note": "refuted as documented: the protection lasts until the next load balance, proved"
  },
  {
   "property": "C23",
   "status": "proved",
   "theorems": [
    "c23_unrefined_only_on_request_and_never_against_protection"
   ],
   "note": ""
  },
  {
   "property": "C24",
   "status": "proved",
   "theorems": [
    "c24_refining_wins_over_unrefining",
    "c24_refine_beats_unrefine",
    "c24_refine_cancels_unrefines"
   ],
   "note": ""
  },
  {
   "property": "C25",
   "status": "proved",
   "theorems": [
    "c25_histories_with_neighborhoods",
    "c25_processes_agree"
   ],
   "note": ""
  },
  {
   "property": "C26",
   "status": "proved",
   "theorems": [
    "c26_commit_returns_the_new_cells",
    "c26_commit_reports_the_removed_cells"
   ],
   "note": ""
  },
  {
   "property": "C27",
   "status": "proved",
   "theorems": [
    "c27_data_of_refined_cells_readable",
    "c27_data_of_unrefined_cells_readable",
    "c27_data_of_other_cells_kept",
    "c27_clear_forgets"
   ],
   "note": "operator[] without copies of remote cells, which never shadow removed cells"
  },
  {
   "property": "C28",
   "status": "proved",
   "theorems": [
    "c28_load_cells_recreates_the_cells"
   ],
   "note": "load_cells from the level 0 grid, any list of cells forming a balanced tiling; calls between are the modelled requests and commits"
  },
  {
   "property": "C29",
   "status": "proved",
   "theorems": [
    "c29_initial_distribution",
    "c29_every_level_0_cell_once"
   ],
   "note": "without the optional space filling curve build (USE_SFC)"
  },
  {
   "property": "C30",
   "status": "proved",
   "theorems": [
    "c30_balancing_moves_cells",
    "c30_balancing_keeps_data",
    "c30_nothing_else_appears",
    "c30_no_data_without_continue"
   ],
   "note": ""
  },
  {
   "property": "C31",
   "status": "partial",
   "theorems": [
    "c31_pins_last",
    "c31_pins_survive_balancing",
    "c31_latest_pin_wins_partial",
    "c31_unpinned_cells_are_left_to_the_partitioner",
    "c31_unpin_local_cells",
    "c31_unpin_all_cells",
    "c31_latest_pin_wins_refuted"
   ],
   "note": "refuted: a pin to the process the cell was pinned to by the last load balance does not undo a pending request; proved in all other cases"
  },
  {
   "property": "C32",
   "status": "proved",
   "theorems": [
    "c32_pins_and_weights_only_of_existing_cells",
    "c32_children_inherit_pins",
    "c32_other_cells_keep_pins",
    "c32_unrefined_cells_are_not_pinned",
    "c32_children_inherit_weights"
   ],
   "note": ""
  },
  {
   "property": "C33",
   "status": "proved",
   "theorems": [
    "c33_update_lists",
    "c33_tags_differ",
    "c33_balance_lists",
    "c33_unrefine_lists"
   ],
   "note": "message tags beyond the MPI limit, for which the code aborts, are not modelled"
  },
  {
   "property": "C34",
   "status": "proved",
   "theorems": [
    "c34_any_order_single",
    "c34_any_order_whole",
    "c34_updates_end",
    "c34_every_call_succeeds",
    "c34_update",
    "c34_copies_exist",
    "c34_nothing_else_can_be_read"
   ],
   "note": "copies of all neighborhoods, after any history of calls; blocking update (the split start/wait calls run the same transfers) c34_any_order_single and c34_any_order_whole: the same result in every interleaving of the messages of successive updates, with one message per cell and with one message per process; c34_updates_end: no deadlock, and every execution ends."
  },
  {
   "property": "C35",
   "status": "partial",
   "theorems": [
    "c35_default_neighborhood_refuted",
    "c35_unknown_neighborhood_refuted",
    "c35_returned_value"
   ],
   "note": "refuted for the default neighborhood (returns false) and for unknown ids (throws); proved for added neighborhoods"
  },
  {
   "property": "C36",
   "status": "proved",
   "theorems": [
    "c36_boundaries",
    "c36_unknown_neighborhood"
   ],
   "note": ""
  },
  {
   "property": "C37",
   "status": "proved",
   "theorems": [
    "c37_get_cells",
    "c37_unknown_neighborhood"
   ],
   "note": ""
  },
  {
   "property": "C38",
   "status": "partial",
   "theorems": [
    "c38_neighbors_to_once_refuted",
    "c38_cells"
   ],
   "note": "cell ranges and neighbor ranges proved exact; that the neighbors_to range lists each cell once is refuted: it repeats a cell once per offset in neighbors_of"
  },
  {
   "property": "C39",
   "status": "partial",
   "theorems": [
    "c39_several_derived_items_refuted",
    "c39_every_existing_cell_is_listed_once",
    "c39_cells_are_stored_once_without_overlap"
   ],
   "note": "proved for all distributions and sizes when each cell's data has a named datatype or at most one item of a derived one (item_ok) and the number of cells fits the counts of MPI; several items of a derived datatype are refuted by c39_several_derived_items_refuted (only room for one is reserved and the data of cells overlaps)"
  },
  {
   "property": "C40",
   "status": "partial",
   "theorems": [
    "c40_cut_list_is_refused",
    "c40_cut_place_refuted",
    "c40_large_grids_refuted",
    "c40_loading_restores_cells_and_bytes",
    "c40_save_then_load_restores_cells_and_data",
    "c40_large_grids_are_not_loaded"
   ],
   "note": "proved under the conditions of C39, for different numbers of processes and any distributions at saving and loading; several items of a derived datatype and 2^30 or more cells are refuted; cut lists of cells are refused: c40_cut_list_is_refused, but not if only the last place is missing: c40_cut_place_refuted"
  },
  {
   "property": "C41",
   "status": "partial",
   "theorems": [
    "c41_all_gather",
    "c41_all_gather_otherwise",
    "c41_all_gather_overflow_refuted",
    "c41_all_reduce",
    "c41_some_reduce",
    "c41_some_reduce_ends"
   ],
   "note": "c41_all_gather, c41_all_reduce and c41_some_reduce give the results for all process counts and contributions, Some_Reduce in every interleaving of its messages; missing: more than INT_MAX values before the last process, where the int displacements overflow (c41_all_gather_overflow_refuted); c41_all_gather_otherwise says exactly when the program stops or overflows."
  },
  {
   "property": "C42",
   "status": "partial",
   "theorems": [
    "c42_set_accepts_nan_refuted",
    "c42_rounding_refuted",
    "c42_cartesian_boxes_tile_the_domain",
    "c42_no_geometry_boxes_tile_the_domain",
    "c42_cartesian_center_and_length",
    "c42_no_geometry_center_and_length",
    "c42_impossible_cells_have_no_place",
    "c42_set_refuses_nonpositive_lengths"
   ],
   "note": "Proved in exact rational arithmetic for Cartesian_Geometry and No_Geometry: boxes of one level tile the grid, children tile their parent, existing cells tile the grid, center and length, NaN for impossible cells, set refuses lengths <= 0. Refuted with 64 bit floating point numbers (neighboring boxes do not touch) and for set with NaN lengths. C70 proves the same statements with doubles for parameters that are multiples of a power of two."
  },
  {
   "property": "C43",
   "status": "partial",
   "theorems": [
    "c43_end_of_grid_refuted",
    "c43_stretched_ignores_periodicity_refuted",
    "c43_rounding_refuted",
    "c43_cartesian_get_cell",
    "c43_no_geometry_get_cell",
    "c43_cartesian_center_is_in_the_cell",
    "c43_no_geometry_center_is_in_the_cell",
    "c43_stretched_center_is_in_the_cell",
    "c43_stretched_periodic_refuted"
   ],
   "note": "Proved in exact arithmetic for Cartesian_Geometry and No_Geometry, with an exact description of the coordinates without a cell, and get_cell(level, center) = cell for all three geometries. Refuted at the end of the grid (also periodic), for coordinates outside of a periodic stretched grid, and with rounding. C70 proves it with doubles when nothing is rounded."
  },
  {
   "property": "C44",
   "status": "partial",
   "theorems": [
    "c44_rounding_refuted",
    "c44_cartesian_real_coordinate",
    "c44_no_geometry_real_coordinate",
    "c44_stretched_real_coordinate"
   ],
   "note": "Proved in exact arithmetic for all three geometries. Refuted with 64 bit floating point numbers: the wrapped coordinate can be outside of the grid. C70 proves it with doubles for coordinates and ends of the grid that are multiples of a power of two."
  },
  {
   "property": "C45",
   "status": "partial",
   "theorems": [
    "c45_coordinates_before_set_refuted",
    "c45_set_accepts_nan_refuted",
    "c45_boxes_tile_the_domain",
    "c45_center_and_length",
    "c45_impossible_cells_have_no_place",
    "c45_set_accepts_increasing_coordinates",
    "c45_set_cartesian_gives_the_same_boxes",
    "c45_reset",
    "c45_get_cell_partial",
    "c45_start_coordinate_refuted"
   ],
   "note": "Proved in exact arithmetic: set, tiling, center and length, get_cell for coordinates after the start, set from a Cartesian geometry. Refuted: get_cell at the start coordinate reads outside of the coordinates, NaN coordinates are accepted, coordinates from before set_length are too few. C70 has the same statements with doubles. reset() gives the unit cells it documents (c45_reset)."
  },
  {
   "property": "C46",
   "status": "partial",
   "theorems": [
    "c46_initialize_works_once",
    "c46_retry_refuted",
    "c46_settings_after_initialize_refuted"
   ],
   "note": "False as stated: initialize marks the grid as initialized before checking that its length was set, so after a failed initialize every later one throws and there are never cells (c46_initialize_works_once, c46_retry_refuted), and all setters other than set_initial_length are accepted after initialize, changing mapping, periodicity or neighborhood length under existing cells and neighbor lists (c46_settings_after_initialize_refuted). What holds before initialize is C58."
  },
  {
   "property": "C47",
   "status": "partial",
   "theorems": [
    "c47_part_numbers",
    "c47_part_numbers_refuted"
   ],
   "note": "Ranks with equal part numbers differ by less than the smallest number of processes per part, and are equal if some level has one process per part (c47_part_numbers); without such a level uniqueness is false (c47_part_numbers_refuted). Options are C59."
  },
  {
   "property": "C48",
   "status": "proved",
   "theorems": [
    "c48_get_existing_cell",
    "c48_find_cells_all_levels"
   ],
   "note": ""
  },
  {
   "property": "C49",
   "status": "proved",
   "theorems": [
    "c49_is_neighbor",
    "c49_is_neighbor_lists"
   ],
   "note": ""
  },
  {
   "property": "C50",
   "status": "proved",
   "theorems": [
    "c50_other_cells_keep_weights",
    "c50_unrefined_cells_have_the_default_weight",
    "c50_weights_only_of_local_cells",
    "c50_last_weight_wins",
    "c50_balancing_resets_weights"
   ],
   "note": ""
  },
  {
   "property": "C51",
   "status": "partial",
   "theorems": [
    "c51_find_cells_levels_partial",
    "c51_find_cells_error_cell_refuted",
    "c51_find_cells_unaligned_refuted"
   ],
   "note": "exact for boxes starting at a multiple of the smallest requested cell size, except that the error cell may be listed; both exceptions are shown by refuted theorems"
  },
  {
   "property": "C52",
   "status": "partial",
   "theorems": [
    "c52_larger_neighbor_refuted",
    "c52_smaller_neighbors_refuted",
    "c52_far_offset_refuted",
    "c52_at_offset_partial"
   ],
   "note": "proved: exactly the entries whose lower corner is the lower corner of the region, hence all of equal size; larger, smaller and far offsets refuted"
  },
  {
   "property": "C53",
   "status": "partial",
   "theorems": [
    "c53_iterator_access_partial",
    "c53_all_cells_after_removal_refuted"
   ],
   "note": "proved except for all_cells of removed neighborhoods, which is refuted"
  },
  {
   "property": "C54",
   "status": "proved",
   "theorems": [
    "c54_counts"
   ],
   "note": ""
  },
  {
   "property": "C55",
   "status": "proved",
   "theorems": [
    "c55_other_byte_order_detected"
   ],
   "note": "the check itself; that the rest of the file is then not read is visible in SaveModel.start_loading"
  },
  {
   "property": "C56",
   "status": "partial",
   "theorems": [
    "c56_several_items_per_call_refuted",
    "c56_parts_are_loaded_one_after_the_other_partial"
   ],
   "note": "proved for parts of one item per call; several items per call are refuted (the offset only advances by the size of one item)"
  },
  {
   "property": "C57",
   "status": "partial",
   "theorems": [
    "c57_end_index_refuted",
    "c57_unaligned_index_refuted",
    "c57_center_of_level_and_index",
    "c57_outside_is_nan_partial",
    "c57_stretched_center_of_index"
   ],
   "note": "Proved for the index of each cell (and for every index of stretched geometry) and for levels and indices beyond the grid. Refuted for the index at the end of the grid and for indices inside of larger cells."
  },
  {
   "property": "C58",
   "status": "proved",
   "theorems": [
    "c58_refused_settings_change_nothing",
    "c58_initialize_uses_the_settings",
    "c58_length_is_set_once",
    "c58_maximum_refinement_level",
    "c58_documented_order"
   ],
   "note": ""
  },
  {
   "property": "C59",
   "status": "proved",
   "theorems": [
    "c59_parts_have_the_given_number_of_processes",
    "c59_levels_and_options",
    "c59_options_given_to_zoltan",
    "c59_reserved_names"
   ],
   "note": "Zoltan's own use of part numbers and options is outside the model."
  },
  {
   "property": "C60",
   "status": "proved",
   "theorems": [
    "c60_zoltan_reads_the_grid",
    "c60_graph_is_symmetric_within_a_level",
    "c60_symmetric_graph_refuted",
    "c60_narrow_ids_refuted"
   ],
   "note": "c60_zoltan_reads_the_grid covers lists, weights, neighbors, edges and ids for ids of 64 bits. Two assumptions of Zoltan's methods that the grid does not meet are refuted: the graph is not symmetric between cells of different levels (c60_symmetric_graph_refuted; it is within a level), and with ids of 32 bits different cells share an id (c60_narrow_ids_refuted). Zoltan itself is external."
  },
  {
   "property": "C61",
   "status": "partial",
   "theorems": [
    "c61_copy_is_the_same_grid",
    "c61_values_are_new",
    "c61_pins_are_not_copied_refuted",
    "c61_neighborhoods_half_copied_refuted",
    "c61_can_be_copied",
    "c61_can_be_copied_in_any_order_refuted"
   ],
   "note": "Cells, owners, neighbors, boundaries, pins, weights and values are proved for all histories, and copies are part of the histories of all other theorems (only for grids without user neighborhoods where these matter). Refuted parts of the documentation: pins are copied, user neighborhoods are copied without the iterators of their cells, grids whose level was set before their length abort. Not modelled: Zoltan_Copy keeps the callbacks' pointer to the original, so the partitioner of a copy reads the original."
  },
  {
   "property": "C62",
   "status": "proved",
   "theorems": [
    "c62_balance_checks_hold",
    "c62_commit_checks_hold",
    "c62_processes_are_consistent",
    "c62_neighbor_lists_verify",
    "c62_boundary_of_cell_verifies",
    "c62_boundary_verifies",
    "c62_data_verifies",
    "c62_pins_verify_after_balancing",
    "c62_offsets_verify",
    "c62_lists_checked",
    "c62_data_checked",
    "c62_consistency_checked",
    "c62_extra_cells_undefined"
   ],
   "note": "The checks of whole states after calls and of single local cells are proved to hold for all histories, including those that read iterators of an earlier state. The checks inside of a commit (c62_commit_checks_hold) and inside of load balancing (c62_balance_checks_hold) are proved never to fire. Of requests see C67. The checks for when Zoltan fails (8581-8603) are not modelled. is_consistent does not notice missing cells at the end of the order of ids (c62_missing_cells_unnoticed), the other checks are shown to notice wrong lists, boundaries and data. c62_consistency_checked is exactly what is_consistent establishes; with cells missing on process 0 it reads past the end of a vector (c62_extra_cells_undefined)."
  },
  {
   "property": "C63",
   "status": "partial",
   "theorems": [
    "c63_cartesian_existing_cell",
    "c63_cartesian_requests",
    "c63_no_geometry_existing_cell",
    "c63_no_geometry_requests",
    "c63_stretched_existing_cell_partial",
    "c63_end_of_grid_refuted",
    "c63_stretched_start_refuted"
   ],
   "note": "Proved for Cartesian_Geometry and No_Geometry in exact arithmetic for all coordinates except those at the upper end of the grid, where no cell is found even if the dimension is periodic (c63_end_of_grid_refuted). For Stretched_Cartesian_Geometry the lookup uses boxes that include their upper instead of their lower faces, and at the start of the grid it reads outside of the coordinates (c63_stretched_start_refuted)."
  },
  {
   "property": "C64",
   "status": "partial",
   "theorems": [
    "c64_vtk_file",
    "c64_coordinates_partial",
    "c64_many_cells_refuted",
    "c64_six_digits_refuted"
   ],
   "note": "Proved with a reader of such files for at most 2^29 local cells, up to the six digits with which coordinates are written (c64_coordinates_partial). With more cells the point numbers wrap and cells are described by corners of others (c64_many_cells_refuted); six digits can make cells flat (c64_six_digits_refuted). Files that cannot be written are not modelled, nor 2^32 or more local cells."
  },
  {
   "property": "C65",
   "status": "proved",
   "theorems": [
    "c65_same_result",
    "c65_no_deadlock",
    "c65_reference",
    "c65_outer_cells_refuted"
   ],
   "note": "c65_same_result with c65_reference, c65_no_deadlock: all executions take the same number of steps and end. Messages between two processes with the same tag are assumed to arrive in order, as MPI promises; data is read when the message is sent, at any time until the wait for sends. Starting receives and sends by separate calls is not modelled. c65_outer_cells_refuted: changing a cell that is being sent changes what arrives, depending on timing."
  },
  {
   "property": "C66",
   "status": "proved",
   "theorems": [
    "c66_any_order",
    "c66_transfers_end",
    "c66_sent_not_received"
   ],
   "note": "Messages between two processes with the same tag are assumed to arrive in order, as MPI promises. c66_any_order is about the data moved; lists of cells and owners come from collectives and are functions of the contributions of all ranks."
  },
  {
   "property": "C67",
   "status": "partial",
   "theorems": [
    "c67_dont_unrefine",
    "c67_dont_refine",
    "c67_refine_completely",
    "c67_unrefine_completely",
    "c67_requests_refuted"
   ],
   "note": "Refuted for cells of maximum refinement level (c67_requests_refuted): Mapping::get_child returns the cell itself there, so the DEBUG checks of dont_refine, dont_unrefine and refine_completely take the cell for its own child and throw. dont_unrefine also throws for existing cells of other processes. What each request does in DEBUG programs is proved exactly for all states; unrefine_completely is the same with and without DEBUG."
  },
  {
   "property": "C68",
   "status": "partial",
   "theorems": [
    "c68_refined_cells",
    "c68_unrefined_families",
    "c68_cells_after",
    "c68_same_requests_same_cells",
    "c68_same_requests_same_refined",
    "c68_order_with_protection_refuted"
   ],
   "note": "Proved without protection from refinement (c68_cells_after, c68_same_requests_same_cells). With dont_refine the refined cells still follow from the set of requests (c68_refined_cells, c68_same_requests_same_refined), but the unrefined ones do not: c68_order_with_protection_refuted has the same three calls in two orders, after one of which a family is merged and after the other not, because a refinement request that is later withdrawn by dont_refine has already erased the request for unrefining its siblings."
  },
  {
   "property": "C69",
   "status": "proved",
   "theorems": [
    "c69_every_step_can_run",
    "c69_same_result",
    "c69_same_result_from_any_state",
    "c69_housekeeping",
    "c69_compute",
    "c69_adapt"
   ],
   "note": "Steps of a program have their effects on all processes before the next step starts, as their calls are collective; within a step everything is ordered arbitrarily. dont_refine is not among the requests, because commits with it depend on the order of requests (C68). Copies of remote neighbors are those of the neighborhood that the step uses; reading data through another neighborhood is not part of a program. Floating point arithmetic in the functions is the business of the functions: neighbors come in the same order on all numbers of processes."
  },
  {
   "property": "C70",
   "status": "proved",
   "theorems": [
    "c70_cartesian_values",
    "c70_cartesian_boxes_tile_the_domain",
    "c70_cartesian_get_cell",
    "c70_cartesian_real_coordinate",
    "c70_no_geometry_values",
    "c70_no_geometry_boxes_tile_the_domain",
    "c70_no_geometry_get_cell",
    "c70_tiny_coordinate_refuted",
    "c70_long_grid_refuted",
    "c70_stretched_values",
    "c70_stretched_boxes_tile_the_domain",
    "c70_stretched_get_cell",
    "c70_stretched_real_coordinate",
    "c70_stretched_set"
   ],
   "note": "Doubles are Coq's SpecFloat with 53 bits, without fused multiply and add. The conditions on the coordinate and on the length of the grid are needed: c70_tiny_coordinate_refuted gives a coordinate of such a Cartesian grid for which get_cell returns another cell or none, c70_long_grid_refuted two cells of a grid of 2^60 cells with the same center. For other parameters see the refutations of C42, C43 and C44. The stretched geometry reads outside of its coordinates at the start of the grid in doubles as in exact arithmetic (C45)."
  },
  {
   "property": "C71",
   "status": "partial",
   "theorems": [
    "c71_all_cells",
    "c71_process",
    "c71_overlap_is_real",
    "c71_overlap_partial",
    "c71_overlap_of_invalid_cells",
    "c71_overlapping_cells",
    "c71_weights",
    "c71_announced_moves",
    "c71_overlap_refuted"
   ],
   "note": "All proved but for the second half of the claim on overlap, which holds only while the level 0 cell exists (c71_overlap_partial): c71_overlap_refuted has a local cell of level 1 that is reported as not overlapping a local cell, although the documentation of cell_overlaps_local says that it returns true if the given cell overlaps a local cell. The function is only used where all cells are of level 0 (load_cells before its first commit)."
  },
  {
   "property": "C72",
   "status": "partial",
   "theorems": [
    "c72_when_stages_succeed",
    "c72_stages_only_change_data",
    "c72_stages_move_data",
    "c72_stages_reach_ordinary_states",
    "c72_parts_make_the_whole",
    "c72_length_then_items",
    "c72_items_one_by_one",
    "c72_items_alone_do_not_fit",
    "c72_whole_messages",
    "c72_whole_messages_refuted",
    "c72_when_updates_succeed",
    "c72_update_parts",
    "c72_updates_reach_ordinary_states"
   ],
   "note": "All proved but for the last sentence without its condition: c72_whole_messages_refuted shows that with one message per process, which is the default, differing sizes of cells on the two sides put data in the wrong cells where one message per cell would have failed. A message that is too long is modelled as a failure (MPI_ERR_TRUNCATE); a shorter one leaves the rest of the memory unchanged. In the theorems on load balancing and updates there is one message per cell; c72_whole_messages is about one pair of processes."
  },
  {
   "property": "C73",
   "status": "proved",
   "theorems": [
    "c73_game_of_life",
    "c73_simple_game_of_life",
    "c73_game_of_life_with_output",
    "c73_conway",
    "c73_blinker_never_fails",
    "c73_hasty_rules_refuted"
   ],
   "note": "c73_game_of_life, c73_simple_game_of_life, c73_game_of_life_with_output for any neighborhood, c73_conway for the usual game, c73_blinker_never_fails for the checks of simple_game_of_life.cpp. Fewer than 2^32 neighborhood offsets (live_neighbor_count is an unsigned int). The output of game_of_life_with_output.cpp is left out (files are in C39, C40). c73_hasty_rules_refuted: if the rules were applied to outer cells before waiting for sends, the result would be wrong for some order of messages."
  },
  {
   "property": "C74",
   "status": "partial",
   "theorems": [
    "c74_saved_games_are_read",
    "c74_one_process_per_file",
    "c74_other_byte_order_skipped",
    "c74_saved_games_are_shown",
    "c74_the_game_is_shown",
    "c74_truncated_refuted"
   ],
   "note": "c74_truncated_refuted shows that a file cut off before the data of cells is accepted and that live cells are shown as dead; the rest is proved"
  },
  {
   "property": "C75",
   "status": "partial",
   "theorems": [
    "c75_code",
    "c75_face_area",
    "c75_one_total",
    "c75_total_kept",
    "c75_first_values",
    "c75_full_courant_number_refuted",
    "c75_clock",
    "c75_simulated_time_refuted",
    "c75_time_step",
    "c75_nonnegative"
   ],
   "note": "c75_full_courant_number_refuted: with cfl = 1, which 2d.cpp allows, a density becomes negative with the velocities of solve.hpp; c75_nonnegative gives a sufficient condition. c75_simulated_time_refuted: time is advanced by dt but the solution by cfl * dt. The rest is proved, in exact arithmetic (c75_total_kept, c75_code, c75_time_step)."
  },
  {
   "property": "C76",
   "status": "partial",
   "theorems": [
    "c76_calls_succeed",
    "c76_made_anew",
    "c76_iterators_current",
    "c76_data_pointers",
    "c76_pointers_while_balancing",
    "c76_neighbors_are_local",
    "c76_centers",
    "c76_center_after_set_geometry_refuted",
    "c76_pointers_to_copies_while_balancing_refuted"
   ],
   "note": "c76_center_after_set_geometry_refuted: set_geometry does not make iterators anew. c76_pointers_to_copies_while_balancing_refuted: initialize_balance_load frees copies of remote cells, pointers to which are kept until finish_balance_load. The rest is proved (c76_data_pointers, c76_iterators_current, c76_made_anew, c76_pointers_while_balancing, c76_neighbors_are_local). all_cells of removed neighborhoods: see C53; copies of grids: see C61."
  },
  {
   "property": "C77",
   "status": "partial",
   "theorems": [
    "c77_cache_up_to_date",
    "c77_failsafe_cache_up_to_date",
    "c77_cache_with_other_cells_refuted",
    "c77_settings",
    "c77_exact_guess_refuted",
    "c77_smallest_residual_refuted",
    "c77_residual_of_stale_boundaries_refuted",
    "c77_transposed_on_refined_refuted",
    "c77_constants_beside_skipped_refuted",
    "c77_transfer_is_exchange",
    "c77_write_is_put",
    "c77_faces_on_all_processes",
    "c77_solve_on_all_processes",
    "c77_types",
    "c77_failsafe_on_all_processes",
    "c77_solve_leaves",
    "c77_failsafe_leaves",
    "c77_operator",
    "c77_operator_of_constants",
    "c77_operator_of_quadratics",
    "c77_residual_is_true",
    "c77_kept_solution",
    "c77_residual_left",
    "c77_transposed",
    "c77_second_sum",
    "c77_failsafe_stops_at_solutions",
    "c77_failsafe_between",
    "c77_same_on_any_processes",
    "c77_failsafe_same_on_any_processes"
   ],
   "note": "c77_exact_guess_refuted: a first guess that is a solution is replaced by best_solution. c77_smallest_residual_refuted: residuals are compared one iteration late, so the result can be worse than the guess. c77_residual_of_stale_boundaries_refuted: p0 of boundary cells is used but never set. c77_transposed_on_refined_refuted: division by four in the wrong direction. c77_constants_beside_skipped_refuted: with part of a side skipped the factors do not add up. c77_cache_with_other_cells_refuted: cache_is_up_to_date with other cells to solve uses the old ones, though the documentation only asks for the same grid and cells_to_skip. The rest is proved in exact arithmetic (c77_same_on_any_processes, c77_solve_on_all_processes, c77_operator, c77_residual_is_true, c77_kept_solution, c77_transposed, c77_failsafe_*, c77_cache_up_to_date). Rounding of doubles and convergence are not covered."
  },
  {
   "property": "C78",
   "status": "proved",
   "theorems": [
    "c78_creation_succeeds",
    "c78_refinable_grids_are_small",
    "c78_no_batches",
    "c78_owners",
    "c78_parts",
    "c78_cells",
    "c78_data",
    "c78_batches_do_not_matter",
    "c78_same_result",
    "c78_same_result_on_any_curve"
   ],
   "note": "For grids of at most 2^63 level 0 cells as far as success is concerned (always so if cells can be refined: c78_refinable_grids_are_small). The curve itself is another library's and is assumed to visit every cell once; c78_needs_a_curve shows what happens otherwise."
  },
  {
   "property": "C79",
   "status": "partial",
   "theorems": [
    "c79_refused_refine_does_nothing",
    "c79_refused_unrefine_does_nothing",
    "c79_refused_dont_refine_does_nothing",
    "c79_refused_dont_unrefine_does_nothing",
    "c79_refine_completely",
    "c79_dont_refine",
    "c79_refine_after_dont_refine",
    "c79_dont_unrefine",
    "c79_unrefine_completely",
    "c79_unrefine_beside_children",
    "c79_refine_again_refuted",
    "c79_refine_at_maximum_does_nothing_refuted",
    "c79_unrefine_with_children_refuted",
    "c79_dont_unrefine_remote_refuted",
    "c79_dont_refine_remote_refuted"
   ],
   "note": "What is returned is characterised for all states; documentation that does not hold is refuted: c79_refine_again_refuted, c79_refine_at_maximum_does_nothing_refuted, c79_unrefine_with_children_refuted, c79_dont_unrefine_remote_refuted, c79_dont_refine_remote_refuted."
  },
  {
   "property": "C80",
   "status": "partial",
   "theorems": [
    "c80_table",
    "c80_table_limit_refuted",
    "c80_table_sensitivity_refuted",
    "c80_every_face_refuted",
    "c80_differences",
    "c80_sets",
    "c80_no_levels",
    "c80_cells_after",
    "c80_as_if_all_asked",
    "c80_is_step",
    "c80_same_cells"
   ],
   "note": "Which cells are chosen and what becomes of the grid is characterised for all states. Documentation that does not hold is refuted: c80_every_face_refuted (of several smaller cells behind a face only one counts), c80_table_limit_refuted, c80_table_sensitivity_refuted; c80_table is what holds of the table. Numbers are exact rationals."
  },
  {
   "property": "C81",
   "status": "partial",
   "theorems": [
    "c81_conway_short_board_refuted",
    "c81_three_dimensions_refuted",
    "c81_turn",
    "c81_turn_possible",
    "c81_plays_the_game",
    "c81_first_values",
    "c81_is_conways_game",
    "c81_same_as_reference",
    "c81_from_start"
   ],
   "note": "Proved for boards one cell thick: c81_turn, c81_turn_possible, c81_plays_the_game, c81_from_start, c81_same_as_reference, c81_is_conways_game. Refuted: c81_three_dimensions_refuted (solve.hpp:33-34 only asks for at most one refinement), c81_conway_short_board_refuted. refine.hpp is a step that requests changes of any cells and gives data[0] to new cells; its update of copies before the requests is extra and has no effect on its choices. solve_optimized.hpp does the same through the iterators of C38. Files written for viewing are left out."
  },
  {
   "property": "C82",
   "status": "partial",
   "theorems": [
    "c82_options",
    "c82_needed_options_kept",
    "c82_refused",
    "c82_reserved_cannot_change_refuted",
    "c82_does_nothing_refuted",
    "c82_told_method_refuted",
    "c82_copied_method_refuted",
    "c82_switched_off_refuted"
   ],
   "note": "c82_options, c82_needed_options_kept, c82_refused hold for all call sequences. Documentation that does not hold is refuted: c82_reserved_cannot_change_refuted, c82_does_nothing_refuted, c82_told_method_refuted, c82_copied_method_refuted, c82_switched_off_refuted. Zoltan itself is outside the model except that its parameter names are not case sensitive (its documentation)."
  },
  {
   "property": "C83",
   "status": "partial",
   "theorems": [
    "c83_no_particles_made_refuted",
    "c83_every_particle_moves_refuted",
    "c83_copies_work_refuted",
    "c83_same_after_two_steps_refuted",
    "c83_lists",
    "c83_arrivals_are_inside",
    "c83_conserved",
    "c83_right_place",
    "c83_transfers",
    "c83_copies_hold_all",
    "c83_same_on_any_processes"
   ],
   "note": "Proved with the conditions in the statement, for one step: c83_transfers, c83_copies_hold_all, c83_lists, c83_same_on_any_processes, c83_arrivals_are_inside, c83_conserved, c83_right_place. Refuted: c83_no_particles_made_refuted, c83_every_particle_moves_refuted, c83_copies_work_refuted, c83_same_after_two_steps_refuted. On refined grids copies that only list a cell of this process are not sent, so there that copies hold the particles of owners stays a condition. save() is left out."
  },
  {
   "property": "C84",
   "status": "partial",
   "theorems": [
    "c84_offset",
    "c84_offset_no_cell",
    "c84_norm",
    "c84_offset_gives_serial",
    "c84_access",
    "c84_initialize",
    "c84_when_solve_works",
    "c84_solves",
    "c84_no_other_solution",
    "c84_solve_again",
    "c84_total_must_vanish",
    "c84_given_rhs_refuted",
    "c84_parallel_operator",
    "c84_same_as_serial"
   ],
   "note": "Proved in exact rational arithmetic: c84_solves, c84_no_other_solution, c84_total_must_vanish, c84_solve_again, c84_when_solve_works, c84_access, c84_initialize; for the parallel solver c84_parallel_operator, c84_same_as_serial, c84_offset, c84_offset_no_cell, c84_offset_gives_serial, c84_norm (exact solutions; that the iteration reaches one is C77). Refuted: c84_given_rhs_refuted (documentation at reference_poisson_solve.hpp:26-30)."
  },
  {
   "property": "C85",
   "status": "partial",
   "theorems": [
    "c85_resolves",
    "c85_not_const_first",
    "c85_with_arguments",
    "c85_precedence_refuted",
    "c85_precedence_same_const",
    "c85_own_type",
    "c85_whole_cell",
    "c85_large_array_refuted",
    "c85_arrays",
    "c85_scalars"
   ],
   "note": "Proved: c85_resolves, c85_not_const_first, c85_with_arguments, c85_precedence_same_const, c85_own_type, c85_whole_cell, c85_arrays, c85_scalars. Refuted: c85_precedence_refuted (documentation at dccrg_get_cell_datatype.hpp:132, 177), c85_large_array_refuted."
  }
 ]
}