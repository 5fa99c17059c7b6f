{
 "C01": [
  "proved",
  "id <-> (level, indices) bijection for every mapping whose last id fits in 64 bits, wrap-around modelled"
 ],
 "C02": [
  "proved",
  ""
 ],
 "C03": [
  "proved",
  ""
 ],
 "C04": [
  "proved",
  ""
 ],
 "C05": [
  "partial",
  "all functions except get_all_children for ids above the last cell, for which the documented behaviour is refuted"
 ],
 "C06": [
  "proved",
  ""
 ],
 "C07": [
  "partial",
  "overflow claim refuted (the code checks the sum of lengths instead of the product); atomicity, zero check and acceptance of all fitting lengths proved"
 ],
 "C08": [
  "partial",
  "exact limit refuted by rounding; limit within 2^13 cells of 2^64 proved"
 ],
 "C09": [
  "partial",
  "refuted for arbitrary call order and for negative levels; proved for length followed by non-negative level"
 ],
 "C11": [
  "proved",
  ""
 ],
 "C12": [
  "proved",
  ""
 ],
 "C13": [
  "partial",
  "proved whenever no product of offset and cell length overflows 64 bits; refuted for grids so long that it does"
 ],
 "C14": [
  "proved",
  ""
 ],
 "C15": [
  "proved",
  "for neighborhoods whose reach beyond a non-periodic grid end stays below 2^64 indices"
 ],
 "C16": [
  "proved",
  ""
 ],
 "C48": [
  "proved",
  ""
 ],
 "C49": [
  "proved",
  ""
 ],
 "C51": [
  "partial",
  "exact for boxes starting at a multiple of the smallest requested cell size, except that the error cell may be listed; both exceptions are shown by refuted theorems"
 ],
 "C18": [
  "proved",
  "all reachable histories of calls; the partitioner may answer anything consistent"
 ],
 "C19": [
  "proved",
  ""
 ],
 "C20": [
  "proved",
  ""
 ],
 "C21": [
  "proved",
  ""
 ],
 "C23": [
  "proved",
  ""
 ],
 "C24": [
  "proved",
  ""
 ],
 "C25": [
  "proved",
  ""
 ],
 "C26": [
  "proved",
  ""
 ],
 "C27": [
  "proved",
  "operator[] without copies of remote cells, which never shadow removed cells"
 ],
 "C29": [
  "proved",
  "without the optional space filling curve build (USE_SFC)"
 ],
 "C30": [
  "proved",
  ""
 ],
 "C32": [
  "proved",
  ""
 ],
 "C50": [
  "proved",
  ""
 ],
 "C22": [
  "partial",
  "refuted as documented: the protection lasts until the next load balance, proved"
 ],
 "C31": [
  "partial",
  "refuted: a pin to the process the cell was pinned to by the last load balance does not undo a pending request; proved in all other cases"
 ],
 "C28": [
  "proved",
  "load_cells from the level 0 grid, any list of cells forming a balanced tiling; calls between are the modelled requests and commits"
 ],
 "C17": [
  "partial",
  "refuted: lists are returned for every existing cell, local or not, and these lists are exact (proved); only unknown cells get none"
 ],
 "C33": [
  "proved",
  "message tags beyond the MPI limit, for which the code aborts, are not modelled"
 ],
 "C34": [
  "proved",
  "copies of all neighborhoods, after any history of calls; blocking update (the split start/wait calls run the same transfers) c34_any_order_single and c34_any_order_whole: the same result in every interleaving of the messages of successive updates, with one message per cell and with one message per process; c34_updates_end: no deadlock, and every execution ends."
 ],
 "C35": [
  "partial",
  "refuted for the default neighborhood (returns false) and for unknown ids (throws); proved for added neighborhoods"
 ],
 "C36": [
  "proved",
  ""
 ],
 "C37": [
  "proved",
  ""
 ],
 "C38": [
  "partial",
  "cell ranges and neighbor ranges proved exact; that the neighbors_to range lists each cell once is refuted: it repeats a cell once per offset in neighbors_of"
 ],
 "C52": [
  "partial",
  "proved: exactly the entries whose lower corner is the lower corner of the region, hence all of equal size; larger, smaller and far offsets refuted"
 ],
 "C53": [
  "partial",
  "proved except for all_cells of removed neighborhoods, which is refuted"
 ],
 "C54": [
  "proved",
  ""
 ],
 "C41": [
  "partial",
  "c41_all_gather, c41_all_reduce and c41_some_reduce give the results for all process counts and contributions, Some_Reduce in every interleaving of its messages; missing: more than INT_MAX values before the last process, where the int displacements overflow (c41_all_gather_overflow_refuted); c41_all_gather_otherwise says exactly when the program stops or overflows."
 ],
 "C10": [
  "partial",
  "round trips of mapping, topology and all geometries proved for all values and surrounding bytes; wrong tags and short streams refused; refuted: truncated files are accepted by the MPI reads, a stretched geometry whose coordinates were never set writes bytes that no grid of that size reads, and a length set after a large maximum level writes bytes that are refused on reading; which bits a geometry accepts is stated with IEEE 754 comparisons (c10_cartesian_accepted, c10_stretched_accepted), refuted for lengths and coordinates that are not numbers, which are accepted"
 ],
 "C55": [
  "proved",
  "the check itself; that the rest of the file is then not read is visible in SaveModel.start_loading"
 ],
 "C39": [
  "partial",
  "proved for all distributions and sizes when each cell's data has a named datatype or at most one item of a derived one (item_ok) and the number of cells fits the counts of MPI; several items of a derived datatype are refuted by c39_several_derived_items_refuted (only room for one is reserved and the data of cells overlaps)"
 ],
 "C40": [
  "partial",
  "proved under the conditions of C39, for different numbers of processes and any distributions at saving and loading; several items of a derived datatype and 2^30 or more cells are refuted; cut lists of cells are refused: c40_cut_list_is_refused, but not if only the last place is missing: c40_cut_place_refuted"
 ],
 "C56": [
  "partial",
  "proved for parts of one item per call; several items per call are refuted (the offset only advances by the size of one item)"
 ],
 "C42": [
  "partial",
  "Proved in exact rational arithmetic for Cartesian_Geometry and No_Geometry: boxes of one level tile the grid, children tile their parent, existing cells tile the grid, center and length, NaN for impossible cells, set refuses lengths <= 0. Refuted with 64 bit floating point numbers (neighboring boxes do not touch) and for set with NaN lengths. C70 proves the same statements with doubles for parameters that are multiples of a power of two."
 ],
 "C43": [
  "partial",
  "Proved in exact arithmetic for Cartesian_Geometry and No_Geometry, with an exact description of the coordinates without a cell, and get_cell(level, center) = cell for all three geometries. Refuted at the end of the grid (also periodic), for coordinates outside of a periodic stretched grid, and with rounding. C70 proves it with doubles when nothing is rounded."
 ],
 "C44": [
  "partial",
  "Proved in exact arithmetic for all three geometries. Refuted with 64 bit floating point numbers: the wrapped coordinate can be outside of the grid. C70 proves it with doubles for coordinates and ends of the grid that are multiples of a power of two."
 ],
 "C45": [
  "partial",
  "Proved in exact arithmetic: set, tiling, center and length, get_cell for coordinates after the start, set from a Cartesian geometry. Refuted: get_cell at the start coordinate reads outside of the coordinates, NaN coordinates are accepted, coordinates from before set_length are too few. C70 has the same statements with doubles. reset() gives the unit cells it documents (c45_reset)."
 ],
 "C57": [
  "partial",
  "Proved for the index of each cell (and for every index of stretched geometry) and for levels and indices beyond the grid. Refuted for the index at the end of the grid and for indices inside of larger cells."
 ],
 "C46": [
  "partial",
  "False as stated: initialize marks the grid as initialized before checking that its length was set, so after a failed initialize every later one throws and there are never cells (c46_initialize_works_once, c46_retry_refuted), and all setters other than set_initial_length are accepted after initialize, changing mapping, periodicity or neighborhood length under existing cells and neighbor lists (c46_settings_after_initialize_refuted). What holds before initialize is C58."
 ],
 "C47": [
  "partial",
  "Ranks with equal part numbers differ by less than the smallest number of processes per part, and are equal if some level has one process per part (c47_part_numbers); without such a level uniqueness is false (c47_part_numbers_refuted). Options are C59."
 ],
 "C58": [
  "proved",
  ""
 ],
 "C59": [
  "proved",
  "Zoltan's own use of part numbers and options is outside the model."
 ],
 "C60": [
  "proved",
  "c60_zoltan_reads_the_grid covers lists, weights, neighbors, edges and ids for ids of 64 bits. Two assumptions of Zoltan's methods that the grid does not meet are refuted: the graph is not symmetric between cells of different levels (c60_symmetric_graph_refuted; it is within a level), and with ids of 32 bits different cells share an id (c60_narrow_ids_refuted). Zoltan itself is external."
 ],
 "C61": [
  "partial",
  "Cells, owners, neighbors, boundaries, pins, weights and values are proved for all histories, and copies are part of the histories of all other theorems (only for grids without user neighborhoods where these matter). Refuted parts of the documentation: pins are copied, user neighborhoods are copied without the iterators of their cells, grids whose level was set before their length abort. Not modelled: Zoltan_Copy keeps the callbacks' pointer to the original, so the partitioner of a copy reads the original."
 ],
 "C62": [
  "proved",
  "The checks of whole states after calls and of single local cells are proved to hold for all histories, including those that read iterators of an earlier state. The checks inside of a commit (c62_commit_checks_hold) and inside of load balancing (c62_balance_checks_hold) are proved never to fire. Of requests see C67. The checks for when Zoltan fails (8581-8603) are not modelled. is_consistent does not notice missing cells at the end of the order of ids (c62_missing_cells_unnoticed), the other checks are shown to notice wrong lists, boundaries and data. c62_consistency_checked is exactly what is_consistent establishes; with cells missing on process 0 it reads past the end of a vector (c62_extra_cells_undefined)."
 ],
 "C63": [
  "partial",
  "Proved for Cartesian_Geometry and No_Geometry in exact arithmetic for all coordinates except those at the upper end of the grid, where no cell is found even if the dimension is periodic (c63_end_of_grid_refuted). For Stretched_Cartesian_Geometry the lookup uses boxes that include their upper instead of their lower faces, and at the start of the grid it reads outside of the coordinates (c63_stretched_start_refuted)."
 ],
 "C64": [
  "partial",
  "Proved with a reader of such files for at most 2^29 local cells, up to the six digits with which coordinates are written (c64_coordinates_partial). With more cells the point numbers wrap and cells are described by corners of others (c64_many_cells_refuted); six digits can make cells flat (c64_six_digits_refuted). Files that cannot be written are not modelled, nor 2^32 or more local cells."
 ],
 "C65": [
  "proved",
  "c65_same_result with c65_reference, c65_no_deadlock: all executions take the same number of steps and end. Messages between two processes with the same tag are assumed to arrive in order, as MPI promises; data is read when the message is sent, at any time until the wait for sends. Starting receives and sends by separate calls is not modelled. c65_outer_cells_refuted: changing a cell that is being sent changes what arrives, depending on timing."
 ],
 "C66": [
  "proved",
  "Messages between two processes with the same tag are assumed to arrive in order, as MPI promises. c66_any_order is about the data moved; lists of cells and owners come from collectives and are functions of the contributions of all ranks."
 ],
 "C67": [
  "partial",
  "Refuted for cells of maximum refinement level (c67_requests_refuted): Mapping::get_child returns the cell itself there, so the DEBUG checks of dont_refine, dont_unrefine and refine_completely take the cell for its own child and throw. dont_unrefine also throws for existing cells of other processes. What each request does in DEBUG programs is proved exactly for all states; unrefine_completely is the same with and without DEBUG."
 ],
 "C68": [
  "partial",
  "Proved without protection from refinement (c68_cells_after, c68_same_requests_same_cells). With dont_refine the refined cells still follow from the set of requests (c68_refined_cells, c68_same_requests_same_refined), but the unrefined ones do not: c68_order_with_protection_refuted has the same three calls in two orders, after one of which a family is merged and after the other not, because a refinement request that is later withdrawn by dont_refine has already erased the request for unrefining its siblings."
 ],
 "C69": [
  "proved",
  "Steps of a program have their effects on all processes before the next step starts, as their calls are collective; within a step everything is ordered arbitrarily. dont_refine is not among the requests, because commits with it depend on the order of requests (C68). Copies of remote neighbors are those of the neighborhood that the step uses; reading data through another neighborhood is not part of a program. Floating point arithmetic in the functions is the business of the functions: neighbors come in the same order on all numbers of processes."
 ],
 "C70": [
  "proved",
  "Doubles are Coq's SpecFloat with 53 bits, without fused multiply and add. The conditions on the coordinate and on the length of the grid are needed: c70_tiny_coordinate_refuted gives a coordinate of such a Cartesian grid for which get_cell returns another cell or none, c70_long_grid_refuted two cells of a grid of 2^60 cells with the same center. For other parameters see the refutations of C42, C43 and C44. The stretched geometry reads outside of its coordinates at the start of the grid in doubles as in exact arithmetic (C45)."
 ],
 "C71": [
  "partial",
  "All proved but for the second half of the claim on overlap, which holds only while the level 0 cell exists (c71_overlap_partial): c71_overlap_refuted has a local cell of level 1 that is reported as not overlapping a local cell, although the documentation of cell_overlaps_local says that it returns true if the given cell overlaps a local cell. The function is only used where all cells are of level 0 (load_cells before its first commit)."
 ],
 "C72": [
  "partial",
  "All proved but for the last sentence without its condition: c72_whole_messages_refuted shows that with one message per process, which is the default, differing sizes of cells on the two sides put data in the wrong cells where one message per cell would have failed. A message that is too long is modelled as a failure (MPI_ERR_TRUNCATE); a shorter one leaves the rest of the memory unchanged. In the theorems on load balancing and updates there is one message per cell; c72_whole_messages is about one pair of processes."
 ],
 "C73": [
  "proved",
  "c73_game_of_life, c73_simple_game_of_life, c73_game_of_life_with_output for any neighborhood, c73_conway for the usual game, c73_blinker_never_fails for the checks of simple_game_of_life.cpp. Fewer than 2^32 neighborhood offsets (live_neighbor_count is an unsigned int). The output of game_of_life_with_output.cpp is left out (files are in C39, C40). c73_hasty_rules_refuted: if the rules were applied to outer cells before waiting for sends, the result would be wrong for some order of messages."
 ],
 "C74": [
  "partial",
  "c74_truncated_refuted shows that a file cut off before the data of cells is accepted and that live cells are shown as dead; the rest is proved"
 ],
 "C75": [
  "partial",
  "c75_full_courant_number_refuted: with cfl = 1, which 2d.cpp allows, a density becomes negative with the velocities of solve.hpp; c75_nonnegative gives a sufficient condition. c75_simulated_time_refuted: time is advanced by dt but the solution by cfl * dt. The rest is proved, in exact arithmetic (c75_total_kept, c75_code, c75_time_step)."
 ],
 "C76": [
  "partial",
  "c76_center_after_set_geometry_refuted: set_geometry does not make iterators anew. c76_pointers_to_copies_while_balancing_refuted: initialize_balance_load frees copies of remote cells, pointers to which are kept until finish_balance_load. The rest is proved (c76_data_pointers, c76_iterators_current, c76_made_anew, c76_pointers_while_balancing, c76_neighbors_are_local). all_cells of removed neighborhoods: see C53; copies of grids: see C61."
 ],
 "C77": [
  "partial",
  "c77_exact_guess_refuted: a first guess that is a solution is replaced by best_solution. c77_smallest_residual_refuted: residuals are compared one iteration late, so the result can be worse than the guess. c77_residual_of_stale_boundaries_refuted: p0 of boundary cells is used but never set. c77_transposed_on_refined_refuted: division by four in the wrong direction. c77_constants_beside_skipped_refuted: with part of a side skipped the factors do not add up. c77_cache_with_other_cells_refuted: cache_is_up_to_date with other cells to solve uses the old ones, though the documentation only asks for the same grid and cells_to_skip. The rest is proved in exact arithmetic (c77_same_on_any_processes, c77_solve_on_all_processes, c77_operator, c77_residual_is_true, c77_kept_solution, c77_transposed, c77_failsafe_*, c77_cache_up_to_date). Rounding of doubles and convergence are not covered."
 ],
 "C78": [
  "proved",
  "For grids of at most 2^63 level 0 cells as far as success is concerned (always so if cells can be refined: c78_refinable_grids_are_small). The curve itself is another library's and is assumed to visit every cell once; c78_needs_a_curve shows what happens otherwise."
 ],
 "C79": [
  "partial",
  "What is returned is characterised for all states; documentation that does not hold is refuted: c79_refine_again_refuted, c79_refine_at_maximum_does_nothing_refuted, c79_unrefine_with_children_refuted, c79_dont_unrefine_remote_refuted, c79_dont_refine_remote_refuted."
 ],
 "C80": [
  "partial",
  "Which cells are chosen and what becomes of the grid is characterised for all states. Documentation that does not hold is refuted: c80_every_face_refuted (of several smaller cells behind a face only one counts), c80_table_limit_refuted, c80_table_sensitivity_refuted; c80_table is what holds of the table. Numbers are exact rationals."
 ],
 "C81": [
  "partial",
  "Proved for boards one cell thick: c81_turn, c81_turn_possible, c81_plays_the_game, c81_from_start, c81_same_as_reference, c81_is_conways_game. Refuted: c81_three_dimensions_refuted (solve.hpp:33-34 only asks for at most one refinement), c81_conway_short_board_refuted. refine.hpp is a step that requests changes of any cells and gives data[0] to new cells; its update of copies before the requests is extra and has no effect on its choices. solve_optimized.hpp does the same through the iterators of C38. Files written for viewing are left out."
 ],
 "C82": [
  "partial",
  "c82_options, c82_needed_options_kept, c82_refused hold for all call sequences. Documentation that does not hold is refuted: c82_reserved_cannot_change_refuted, c82_does_nothing_refuted, c82_told_method_refuted, c82_copied_method_refuted, c82_switched_off_refuted. Zoltan itself is outside the model except that its parameter names are not case sensitive (its documentation)."
 ],
 "C83": [
  "partial",
  "Proved with the conditions in the statement, for one step: c83_transfers, c83_copies_hold_all, c83_lists, c83_same_on_any_processes, c83_arrivals_are_inside, c83_conserved, c83_right_place. Refuted: c83_no_particles_made_refuted, c83_every_particle_moves_refuted, c83_copies_work_refuted, c83_same_after_two_steps_refuted. On refined grids copies that only list a cell of this process are not sent, so there that copies hold the particles of owners stays a condition. save() is left out."
 ],
 "C84": [
  "partial",
  "Proved in exact rational arithmetic: c84_solves, c84_no_other_solution, c84_total_must_vanish, c84_solve_again, c84_when_solve_works, c84_access, c84_initialize; for the parallel solver c84_parallel_operator, c84_same_as_serial, c84_offset, c84_offset_no_cell, c84_offset_gives_serial, c84_norm (exact solutions; that the iteration reaches one is C77). Refuted: c84_given_rhs_refuted (documentation at reference_poisson_solve.hpp:26-30)."
 ],
 "C85": [
  "partial",
  "Proved: c85_resolves, c85_not_const_first, c85_with_arguments, c85_precedence_same_const, c85_own_type, c85_whole_cell, c85_arrays, c85_scalars. Refuted: c85_precedence_refuted (documentation at dccrg_get_cell_datatype.hpp:132, 177), c85_large_array_refuted."
 ]
}