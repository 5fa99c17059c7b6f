{"id": "C01", "title": "Cell ids and (refinement level, position) correspond one to one", "statement": "For a grid whose last cell id fits in 64 bits, every id from 1 to get_last_cell() has a refinement level in 0..max and in-grid, level-aligned indices, and get_cell_from_indices(get_indices(c), get_refinement_level(c)) = c; conversely for any in-grid indices and any level 0..max the id returned is between 1 and the last cell, has that level, and its indices are the given indices rounded down to a multiple of the cell's length in indices.", "quantifier": "all grid lengths, all maximum refinement levels, all cell ids, all indices", "why_tests_cant": "the id space has up to 2^64 elements and the arithmetic is a per-level offset plus mixed radix digits in wrapping 64-bit arithmetic; tests visit a handful of small grids", "anchors": ["dccrg_mapping.hpp: get_cell_from_indices, get_indices, get_refinement_level, get_cell_length_in_indices, get_last_cell"]}
{"id": "C02", "title": "Cells of one refinement level tile the grid", "statement": "At every refinement level, every index triple inside the grid lies inside exactly one cell of that level, and no cell of the level reaches outside of the grid.", "quantifier": "all grid lengths, maximum levels, levels and index triples", "why_tests_cant": "needs every index of every grid", "anchors": ["dccrg_mapping.hpp: get_cell_from_indices, get_indices, get_cell_length_in_indices"]}
{"id": "C03", "title": "The eight children partition their parent and know it", "statement": "For every cell below the maximum level get_all_children returns eight different valid cells of the next level whose volumes partition the volume of the cell, get_parent of each child is the cell, get_siblings of each child is the same eight cells in the same order, and get_child returns the first of them. A level 0 cell is its own parent and its only sibling; a cell of the maximum level is its own child and has no children.", "quantifier": "all grids, all cells", "why_tests_cant": "quantifies over every cell of every grid including those next to the 64-bit limit", "anchors": ["dccrg_mapping.hpp: get_all_children, get_siblings, get_parent, get_child"]}
{"id": "C04", "title": "Ancestors are found by containment", "statement": "get_level_0_parent equals get_parent iterated until level 0, and it is the unique level 0 cell containing the given cell; iterating get_parent from any cell stops after exactly refinement level steps.", "quantifier": "all grids and cells", "why_tests_cant": "unbounded number of levels/cells", "anchors": ["dccrg_mapping.hpp: get_level_0_parent, get_parent"]}
{"id": "C05", "title": "Out of range ids and indices are reported as errors and nothing else is", "statement": "Ids 0 and above the last cell give level -1, error indices, error length, error parent, error child, error level 0 parent and error siblings; get_cell_from_indices gives the error cell exactly when an index is outside of the grid or the level is outside of 0..max. The documented promise that get_all_children of an invalid id returns error cells is checked too.", "quantifier": "all 64-bit ids, index triples and levels", "why_tests_cant": "invalid inputs are a set of up to 2^64 values and the wrapped arithmetic on error sentinels matters for each of them", "anchors": ["dccrg_mapping.hpp: all query functions", "dccrg_mapping.hpp: get_all_children lines 392-442"]}
{"id": "C06", "title": "Cell ids are ordered by level, then z, y, x", "statement": "A cell at a coarser level always has a smaller id than one at a finer level, the ids of one level are a contiguous range whose size is the level 0 cell count times 8^level, and inside a level ids increase with (z, y, x) lexicographically.", "quantifier": "all grids and pairs of cells", "why_tests_cant": "pairs of cells over all grids", "anchors": ["dccrg_mapping.hpp: get_cell_from_indices, get_refinement_level, update_last_cell"]}
{"id": "C07", "title": "An accepted grid length cannot overflow cell ids", "statement": "If setting the grid length succeeds, the total number of level 0 cells fits in 64 bits; if it fails the previous lengths are unchanged; a length with a zero dimension is always refused.", "quantifier": "all triples of 64-bit lengths", "why_tests_cant": "the failing inputs are astronomically large grids nobody tests", "anchors": ["dccrg_length.hpp: Grid_Length::set"]}
{"id": "C08", "title": "An accepted maximum refinement level cannot overflow cell ids", "statement": "If set_maximum_refinement_level succeeds then the id of the last cell at that level fits in 64 bits, and the largest possible level reported is the largest one for which it does.", "quantifier": "all grid lengths and levels", "why_tests_cant": "the bound is computed in floating point whose rounding matters only next to the limit", "anchors": ["dccrg_mapping.hpp: get_maximum_possible_refinement_level, set_maximum_refinement_level, update_last_cell"]}
{"id": "C09", "title": "Mapping setters leave a consistent mapping", "statement": "After any sequence of successful or failed set_length and set_maximum_refinement_level calls the stored maximum level is between 0 and the maximum possible level of the stored length and the last cell id matches them.", "quantifier": "all sequences of setter calls", "why_tests_cant": "histories of calls with arbitrary arguments", "anchors": ["dccrg_mapping.hpp: set_length, set_maximum_refinement_level, update_last_cell"]}
{"id": "C10", "title": "Saved grid description bytes decode to the same description", "statement": "The bytes written for the mapping, the topology and each of the three geometries decode to the same lengths, maximum level, periodicity and coordinates, occupy exactly the advertised data size, and decoding leaves all other bytes alone; truncated or wrongly tagged geometry bytes are refused.", "quantifier": "all mappings, topologies and geometries, all surrounding file contents", "why_tests_cant": "codec law over all values", "anchors": ["dccrg_mapping.hpp: read, write, data_size", "dccrg_topology.hpp: read, write", "dccrg_cartesian_geometry.hpp: read, write", "dccrg_stretched_cartesian_geometry.hpp: read, write", "dccrg_no_geometry.hpp: read, write"]}
{"id": "C11", "title": "The default neighborhood has exactly the documented offsets", "statement": "With neighborhood length 0 the neighborhood is the six face offsets, with length n > 0 it is every offset in [-n, n]^3 except (0,0,0), each exactly once and in z, y, x order; the neighborhood used for neighbors_to is the point reflection, which is the same set.", "quantifier": "all neighborhood lengths", "why_tests_cant": "all lengths", "anchors": ["dccrg.hpp: initialize_neighborhoods, set_neighborhood_length"]}
{"id": "C12", "title": "User neighborhoods are subsets of the default one and changes are all-or-nothing", "statement": "add_neighborhood succeeds only for an unused id and a list of offsets, none of them zero, that all lie in the default neighborhood; a refused call changes nothing; remove_neighborhood forgets the id; ids in use after any sequence of calls are exactly those added and not removed.", "quantifier": "all sequences of add/remove calls with arbitrary offsets", "why_tests_cant": "call histories", "anchors": ["dccrg.hpp: add_neighborhood, remove_neighborhood, get_neighborhood_of, get_neighborhood_to"]}
{"id": "C13", "title": "Offsets leaving the grid wrap or fail dimension by dimension", "statement": "The indices at a neighborhood offset from a cell are the cell's indices plus offset times cell length, taken modulo the grid size in periodic dimensions; if that leaves the grid in any non-periodic dimension an error index is returned.", "quantifier": "all grids, periodicities, cells and offsets (any distance, also several times around the grid)", "why_tests_cant": "all offsets", "anchors": ["dccrg.hpp: indices_from_neighborhood"]}
{"id": "C14", "title": "Neighbor lists are exactly the cells at the neighborhood offsets", "statement": "In every grid obeying the 2:1 rule, the neighbors_of list of a cell contains, for each neighborhood offset in order whose region is inside the (periodically wrapped) grid, either the one existing cell of the same or twice the size that covers the region or the eight existing cells of half the size inside it, with the true logical offset from the cell to each entry; nothing else is listed and the search always terminates.", "quantifier": "all grids, periodicities, all 2:1 balanced cell sets, all cells, all neighborhoods", "why_tests_cant": "the walk steps over cells of three sizes in a priority order; the cases are 3D geometric and unbounded", "anchors": ["dccrg.hpp: find_neighbors_of, update_neighbors_, get_existing_cell"]}
{"id": "C15", "title": "neighbors_of and neighbors_to are converse relations", "statement": "Cell a is listed in the neighbors_of of b if and only if b is listed in the neighbors_to of a, for the default and for every user neighborhood, in every grid obeying the 2:1 rule.", "quantifier": "all grids, balanced cell sets, pairs of cells, neighborhoods", "why_tests_cant": "pairs over all meshes", "anchors": ["dccrg.hpp: find_neighbors_of, find_neighbors_to"]}
{"id": "C16", "title": "Face neighbors are exactly the cells sharing a face", "statement": "get_face_neighbors_of returns each existing cell that shares a two dimensional face with the given cell (through the periodic boundary too) with the direction of that face, four entries when the neighbor is smaller, and nothing else.", "quantifier": "all balanced grids and cells", "why_tests_cant": "all meshes", "anchors": ["dccrg.hpp: get_face_neighbors_of, update_neighbors_"]}
{"id": "C17", "title": "Neighbor queries are answered only for local cells", "statement": "get_neighbors_of and get_neighbors_to return no list for cells owned by another process, as documented.", "quantifier": "all grids, distributions and cells", "why_tests_cant": "needs every distribution", "anchors": ["dccrg.hpp: get_neighbors_of, get_neighbors_to"]}
{"id": "C18", "title": "The existing cells always tile the grid", "statement": "After any history of grid creation, refinement/unrefinement commits, load balancing and cell loading, every index triple in the grid belongs to exactly one existing cell.", "quantifier": "all histories of API calls by all processes", "why_tests_cant": "arbitrary histories across processes", "anchors": ["dccrg.hpp: stop_refining, execute_refines, override_unrefines, create_level_0_cells, load_cells"]}
{"id": "C19", "title": "Refinement keeps the 2:1 rule", "statement": "After any history of refine/unrefine/dont_refine/dont_unrefine requests and commits, any two existing cells one of which is in the neighborhood of the other differ by at most one refinement level.", "quantifier": "all histories, all processes, all neighborhood lengths", "why_tests_cant": "global invariant over unbounded histories; induced refines and overridden unrefines interact across processes", "anchors": ["dccrg.hpp: induce_refines, override_unrefines, stop_refining"]}
{"id": "C20", "title": "Refine requests are honoured", "statement": "Every cell for which refine_completely returned true and which is below the maximum level and not protected by dont_refine no longer exists after the commit and its eight children do, owned by the same process; cells refined without request are only those forced by the 2:1 rule.", "quantifier": "all states and request sets", "why_tests_cant": "depends on all other requests on all processes", "anchors": ["dccrg.hpp: refine_completely, override_refines, induce_refines, execute_refines"]}
{"id": "C21", "title": "dont_refine protects a cell during the next commit", "statement": "A cell for which dont_refine returned true is not refined by the next stop_refining, neither by request nor by induction.", "quantifier": "all states and request sets of all processes", "why_tests_cant": "protection must spread through the induced refinement closure", "anchors": ["dccrg.hpp: dont_refine, override_refines, induce_refines"]}
{"id": "C22", "title": "dont_refine lasts only until the next commit", "statement": "As documented, dont_refine has an effect only during the next call to stop_refining: afterwards the cell can be refined again.", "quantifier": "all histories", "why_tests_cant": "history property", "anchors": ["dccrg.hpp: dont_refine, override_refines, stop_refining, initialize_balance_load"]}
{"id": "C23", "title": "Unrefinement happens only on request and never against protection", "statement": "A family of siblings is merged into its parent by a commit only if some process requested it for one of the siblings, all eight existed, none of them was to be refined and dont_unrefine was not called for any of them on any process.", "quantifier": "all states and request sets of all processes", "why_tests_cant": "all interleavings of requests", "anchors": ["dccrg.hpp: unrefine_completely, dont_unrefine, override_unrefines, execute_refines"]}
{"id": "C24", "title": "Refining wins over unrefining", "statement": "No cell that is refined by a commit is removed as a sibling of an unrefined cell by the same commit, whatever the order of the requests, and requests on the same process cancel as documented.", "quantifier": "all request sequences", "why_tests_cant": "order of requests", "anchors": ["dccrg.hpp: refine_completely, unrefine_completely, override_unrefines"]}
{"id": "C25", "title": "All processes agree on the cells and their owners", "statement": "After every collective operation all processes hold the same set of existing cells and the same owner for each of them.", "quantifier": "all histories, numbers of processes", "why_tests_cant": "replicated state kept consistent by message exchange", "anchors": ["dccrg.hpp: execute_refines, finish_balance_load, create_level_0_cells, all_to_all_set"]}
{"id": "C26", "title": "Commit reports exactly the new and removed local cells", "statement": "stop_refining returns exactly the cells created on the calling process, get_removed_cells exactly the unrefined cells whose parent now lives on the calling process.", "quantifier": "all states and request sets", "why_tests_cant": "all processes", "anchors": ["dccrg.hpp: stop_refining, execute_refines, get_removed_cells"]}
{"id": "C27", "title": "Data of refined and unrefined cells stays readable", "statement": "After a commit, operator[] on a refined cell gives its old data on its old process, operator[] on a removed sibling gives its old data on the process of its parent (whichever process it was on), and data of all other cells is untouched, until clear_refined_unrefined_data is called.", "quantifier": "all states, data and request sets", "why_tests_cant": "data moves between processes depending on ownership of all eight siblings", "anchors": ["dccrg.hpp: execute_refines, operator[], clear_refined_unrefined_data"]}
{"id": "C28", "title": "load_cells recreates the given cells", "statement": "Starting from an unrefined grid, load_cells with the complete list of cells of any 2:1 balanced tiling leaves exactly these cells existing.", "quantifier": "all balanced tilings", "why_tests_cant": "all meshes", "anchors": ["dccrg.hpp: load_cells"]}
{"id": "C29", "title": "Initial distribution covers every cell once and evenly", "statement": "At creation every level 0 cell id from 1 to the number of cells is given to exactly one process, processes get consecutive id ranges in rank order, and the numbers of cells per process differ by at most one.", "quantifier": "all grid sizes and process counts, including fewer cells than processes", "why_tests_cant": "all pairs of sizes and process counts", "anchors": ["dccrg.hpp: create_level_0_cells"]}
{"id": "C30", "title": "Load balancing moves cells without loss or duplication", "statement": "After balance_load every previously existing cell exists exactly once, on the process decided by the pin request if there is one, otherwise by the partitioner's answer, otherwise where it was; its data arrives unchanged and no other cell or data appears.", "quantifier": "all states, partitioner answers and pin requests", "why_tests_cant": "all decisions of an external partitioner", "anchors": ["dccrg.hpp: balance_load, initialize_balance_load, continue_balance_load, finish_balance_load, make_new_partition"]}
{"id": "C31", "title": "The latest pin call wins", "statement": "At the next load balancing, a cell goes to the process named by the last successful pin/unpin call made for it by its owner since creation; cells whose last call was unpin are left to the partitioner.", "quantifier": "all sequences of pin/unpin calls and load balances", "why_tests_cant": "histories", "anchors": ["dccrg.hpp: pin, unpin, unpin_local_cells, unpin_all_cells, update_pin_requests"]}
{"id": "C32", "title": "Children inherit pins and weights", "statement": "When a pinned cell is refined its children are pinned to the same process; pins and weights never refer to cells that do not exist.", "quantifier": "all histories", "why_tests_cant": "histories", "anchors": ["dccrg.hpp: execute_refines, pin, set_cell_weight"]}
{"id": "C33", "title": "Both ends of every cell transfer agree", "statement": "For neighbor data updates, load balancing and unrefinement: the list of cells (and message tags) process p sends to q is the same, in the same order, as the list q receives from p; no cell is listed twice.", "quantifier": "all grids, distributions, process pairs, neighborhoods", "why_tests_cant": "all distributions", "anchors": ["dccrg.hpp: recalculate_neighbor_update_send_receive_lists, make_new_partition, execute_refines"]}
{"id": "C34", "title": "Remote neighbor updates deliver the owner's current data", "statement": "After update_copies_of_remote_neighbors, reading any remote neighbor of a local cell gives the data its owner held when the update was made; data of local cells is unchanged.", "quantifier": "all states, distributions, neighborhoods, data", "why_tests_cant": "all distributions", "anchors": ["dccrg.hpp: update_copies_of_remote_neighbors, start_user_data_transfers, start_user_data_receives, start_user_data_sends"]}
{"id": "C35", "title": "Update reports success", "statement": "update_copies_of_remote_neighbors returns true for every existing neighborhood, including the default one, and false for an unknown one.", "quantifier": "all neighborhood ids and states", "why_tests_cant": "documented return value over all states", "anchors": ["dccrg.hpp: update_copies_of_remote_neighbors"]}
{"id": "C36", "title": "Boundary classification is exact", "statement": "Every local cell is exactly one of inner or outer; it is outer exactly when one of its neighbors (of or to) is on another process; the remote cells are exactly the non-local neighbors of local cells.", "quantifier": "all grids, distributions, neighborhoods", "why_tests_cant": "all distributions", "anchors": ["dccrg.hpp: update_remote_neighbor_info, get_local_cells_on_process_boundary, get_local_cells_not_on_process_boundary, get_remote_cells_on_process_boundary"]}
{"id": "C37", "title": "Cell selection by neighbor criteria", "statement": "get_cells without criteria returns all local cells; with exact matching it returns exactly the local cells whose set of neighbor types equals one of the given criteria, otherwise exactly those having at least one neighbor of a type named in any of the criteria; each cell once, and none for an unknown neighborhood.", "quantifier": "all states, criteria lists", "why_tests_cant": "all subsets of criteria and cells", "anchors": ["dccrg.hpp: get_cells, is_neighbor_type_match"]}
{"id": "C38", "title": "Iterator caches list every neighbor once under the right view", "statement": "The cached neighbor ranges of a local cell give exactly the neighbors_of entries, exactly the cells in neighbors_to (each once), and their union; the cell ranges inner/outer/local/remote/all give exactly those cells, each once, the remote ones being those of the default neighborhood.", "quantifier": "all states", "why_tests_cant": "all states", "anchors": ["dccrg.hpp: update_cell_pointers"]}
{"id": "C39", "title": "Files store every cell once without overlap", "statement": "A saved grid lists every existing cell exactly once with a data offset, the data ranges do not overlap each other or the metadata, and follow the order of cells in the list.", "quantifier": "all distributions and cell data sizes", "why_tests_cant": "all distributions and data sizes", "anchors": ["dccrg.hpp: save_grid_data, start_loading_grid_data, continue_loading_grid_data"]}
{"id": "C40", "title": "Save followed by load restores cells and data", "statement": "Loading a saved grid on any number of processes gives the same existing cells and the same data in each of them. A file of any origin that ends before some cell of its list of cells stops the program instead of being loaded in part. Refuted: that this also holds if the file ends between the last cell and the place of its data.", "quantifier": "all grids, data, process counts at save and load", "why_tests_cant": "all combinations", "anchors": ["dccrg.hpp: save_grid_data, start_loading_grid_data, continue_loading_grid_data, finish_loading_grid_data", "dccrg.hpp:2088-2112"]}
{"id": "C41", "title": "Collective helpers return every contribution in rank order", "statement": "All_Gather returns each process's vector at its rank on all processes, All_Reduce the 64-bit sum of all contributions, Some_Reduce the sum over the given processes.", "quantifier": "all process counts and contributions", "why_tests_cant": "all process counts", "anchors": ["dccrg_mpi_support.hpp: All_Gather, All_Reduce, Some_Reduce"]}
{"id": "C42", "title": "Cartesian cells tile the physical domain", "statement": "In exact arithmetic the boxes [get_min, get_max] of the cells of one level tile [start, end] without gaps or overlap, the center is the middle and lies in the cell's box, and children's boxes tile the parent's box.", "quantifier": "all starts, cell lengths, grids, cells", "why_tests_cant": "all real parameters", "anchors": ["dccrg_cartesian_geometry.hpp: get_length, get_center, get_min, get_max"]}
{"id": "C43", "title": "Coordinates map to the cell containing them", "statement": "get_cell(level, coordinate) for a coordinate inside the grid (wrapped in periodic dimensions) is the cell of that level whose box contains it, and get_cell(level(c), get_center(c)) = c; coordinates outside give the error cell.", "quantifier": "all geometries, coordinates, levels", "why_tests_cant": "all real coordinates incl. boundaries", "anchors": ["dccrg_cartesian_geometry.hpp: get_indices, get_cell, get_real_coordinate", "dccrg_stretched_cartesian_geometry.hpp: get_indices, get_cell", "dccrg_no_geometry.hpp: get_indices, get_cell"]}
{"id": "C44", "title": "Periodic coordinates wrap by whole grid lengths", "statement": "get_real_coordinate changes a coordinate by a whole number of grid lengths in periodic dimensions, always gives a result inside the grid, leaves inside coordinates alone, and gives NaN exactly for coordinates outside in non-periodic dimensions.", "quantifier": "all geometries and coordinates", "why_tests_cant": "all reals", "anchors": ["dccrg_cartesian_geometry.hpp: get_real_coordinate"]}
{"id": "C45", "title": "Stretched geometry accepts only increasing coordinates and tiles them", "statement": "set refuses coordinate lists of wrong size or order leaving the old ones; get_min/get_max of cells of one level tile the domain in exact arithmetic, and every coordinate inside of the grid maps to an existing index.", "quantifier": "all coordinate lists, cells and coordinates", "why_tests_cant": "all lists", "anchors": ["dccrg_stretched_cartesian_geometry.hpp: set, get_min, get_max, get_indices"]}
{"id": "C46", "title": "A failed initialization can be retried", "statement": "If initialize fails because the grid length was not set, the grid is still uninitialized: setting the length and initializing again works; configuration setters work before and are refused after initialization.", "quantifier": "all call sequences of the configuration interface", "why_tests_cant": "call histories", "anchors": ["dccrg.hpp: initialize, set_initial_length, set_neighborhood_length, set_maximum_refinement_level, set_periodic"]}
{"id": "C47", "title": "Hierarchical partition numbers address processes uniquely", "statement": "With the processes-per-part numbers given through add_partitioning_level, the part numbers reported for different levels determine the process rank uniquely, and options added to a level are returned until removed.", "quantifier": "all level lists, ranks, call sequences", "why_tests_cant": "all configurations", "anchors": ["dccrg.hpp: add_partitioning_level, get_part_number, add_partitioning_option"]}
{"id": "C48", "title": "Existing cell lookup finds the cells at a location", "statement": "The existing cell reported for an index triple is the one existing cell covering it, and the error cell outside of the grid; find_cells over all refinement levels returns exactly the existing cells overlapping the given box, each once.", "quantifier": "all meshes and locations", "why_tests_cant": "all meshes", "anchors": ["dccrg.hpp: get_existing_cell, find_cells, indices_overlap"]}
{"id": "C49", "title": "Distance test agrees with neighborhoods", "statement": "The test used across process boundaries for deciding whether a refined cell forces a larger local cell to refine agrees with membership in the neighbor lists, in all periodicities.", "quantifier": "all grids, cells, neighborhood lengths", "why_tests_cant": "all pairs of cells incl. periodic wrap", "anchors": ["dccrg.hpp: is_neighbor, overlapping_indices, indices_overlap, induce_refines"]}
{"id": "C50", "title": "Cell weights are kept only for local existing cells", "statement": "set_cell_weight succeeds only for existing local cells, get_cell_weight returns the last weight set since the last load balance or 1, weights are inherited by children and dropped with removed cells.", "quantifier": "all call histories", "why_tests_cant": "histories", "anchors": ["dccrg.hpp: set_cell_weight, get_cell_weight, execute_refines"]}
{"id": "C51", "title": "find_cells honours a refinement level range", "statement": "find_cells with a range of refinement levels returns exactly the existing cells of those levels that overlap the given box, for every box inside the grid.", "quantifier": "all meshes, boxes and level ranges", "why_tests_cant": "all meshes; the sampling step depends on the level range and box alignment", "anchors": ["dccrg.hpp: find_cells, get_existing_cell"]}
{"id": "C52", "title": "Neighbors at an offset", "statement": "get_neighbors_of_at_offset returns exactly the entries of the neighbor list of a local cell that lie in the region of the size of the cell at the given offset, larger and smaller neighbors included, and nothing for other cells, the zero offset and offsets beyond the neighborhood.", "quantifier": "all grids, periodicities, histories, cells and offsets", "why_tests_cant": "Which neighbors are missed depends on relative sizes and alignment of cells and on periodic wrap-around; a test sees a few placements.", "anchors": ["dccrg.hpp: get_neighbors_of_at_offset"]}
{"id": "C53", "title": "Iterators exist exactly for existing neighborhoods", "statement": "After any sequence of adding and removing neighborhoods and changing the grid, inner_cells, outer_cells, local_cells, remote_cells and all_cells give usable iterators for the default and every existing neighborhood and throw for every other id.", "quantifier": "all sequences of calls and ids", "why_tests_cant": "Iterators into freed memory often seem to work in a test.", "anchors": ["dccrg.hpp: inner_cells, outer_cells, local_cells, remote_cells, all_cells, add_neighborhood, remove_neighborhood, update_cell_pointers_user"]}
{"id": "C54", "title": "Numbers of transferred cells", "statement": "get_number_of_update_send_cells and get_number_of_update_receive_cells return the number of pairs of another process and a cell sent to, or received from, that process in an update, and the largest number for an unknown neighborhood.", "quantifier": "all grids, histories, distributions and neighborhoods", "why_tests_cant": "Tests look at single distributions and cannot relate the counts to the neighbor relation in general.", "anchors": ["dccrg.hpp: get_number_of_update_send_cells, get_number_of_update_receive_cells"]}
{"id": "C55", "title": "Files of other byte order are refused", "statement": "start_loading_grid_data of a file written on a machine of the other byte order returns false at the endianness check, a file written with the same byte order passes it.", "quantifier": "all files and offsets", "why_tests_cant": "Tests run on machines of one byte order.", "anchors": ["dccrg.hpp: save_grid_data, start_loading_grid_data"]}
{"id": "C56", "title": "Cell data can be loaded in several calls", "statement": "If cells return a part of their saved data's datatype in each call of continue_loading_grid_data, consecutive calls load consecutive parts of each cell's saved data, as documented for data whose amount is not known in advance.", "quantifier": "all splits of cell data into parts, numbers of calls and datatypes", "why_tests_cant": "Tests use single items per call; the general advance of the offset is not exercised.", "anchors": ["dccrg.hpp: continue_loading_grid_data"]}
{"id": "C57", "title": "Center of a level and index is the center of the cell there", "statement": "get_center(level, index) of each geometry equals get_center of the cell of that level at that index, and is NaN for levels above the maximum and for indices outside of the grid.", "quantifier": "all geometries, grids, levels and indices", "why_tests_cant": "all indices including those at the end of the grid and inside of larger cells", "anchors": ["dccrg_no_geometry.hpp: get_center(int, Types<3>::indices_t)", "dccrg_cartesian_geometry.hpp: get_center(int, Types<3>::indices_t)", "dccrg_stretched_cartesian_geometry.hpp: get_center"]}
{"id": "C58", "title": "Initialize uses the last accepted settings", "statement": "Whatever settings are given before initialize and in whatever order, a refused setting changes nothing, the length of the grid is that of the first accepted set_initial_length, the maximum refinement level, periodicity and neighborhood length are those last accepted, and initialize then creates the level 0 cells of exactly that grid; the documented sequence of calls is never refused for grids whose cells fit into 64 bits.", "quantifier": "all sequences of configuration calls and their parameters", "why_tests_cant": "all call histories", "anchors": ["dccrg.hpp: initialize, set_initial_length, set_neighborhood_length, set_maximum_refinement_level, set_periodic"]}
{"id": "C59", "title": "Partitioning levels and options act on exactly the given level", "statement": "After any sequence of adding and removing partitioning levels and options, an option has the value last given for that level, levels behind a removed one move down by one with their options, refused calls change nothing, Zoltan is given exactly the options of the level, and with processes per part that divide each other two processes are in the same parts down to a level exactly when they are in the same block of that many consecutive ranks.", "quantifier": "all call sequences, levels, names, ranks", "why_tests_cant": "all call histories", "anchors": ["dccrg.hpp: add_partitioning_level, remove_partitioning_level, add_partitioning_option, remove_partitioning_option, get_partitioning_options, get_partitioning_option_value, get_part_number, set_partitioning_options"]}
{"id": "C60", "title": "Zoltan reads one consistent description of the grid", "statement": "Whenever load balancing asks for them, the callbacks registered with Zoltan describe the current grid: the local cells, each once and with its weight, their centers, the number and the list of neighbors of each cell in agreement with each other and with get_neighbors_of (without the cell itself and missing neighbors), each neighbor with the process that owns it, and one hyperedge per local cell made of the cell and its neighbors with as many pins as announced. Ids that are not local are answered with an error.", "quantifier": "every grid that meets the documented limits, every history of calls, every process and every list of ids Zoltan may ask about", "why_tests_cant": "Zoltan calls these functions with buffers sized from their own earlier answers; a mismatch after some history of refinement, migration and weights corrupts memory or the partition silently, and no finite set of histories and queries covers them", "anchors": ["dccrg.hpp:11780-12300", "dccrg.hpp:7880-8010"]}
{"id": "C61", "title": "A copy of a grid is the same grid with new cell data", "statement": "Copy constructing a grid, possibly with another type of cell data, gives a grid with the same cells on the same processes, the same neighbors and process boundaries, in which every cell and every copy of a remote neighbor has a newly constructed value and nothing is scheduled for refinement; every call and every guarantee available for the original is available for the copy. What the documentation excludes is not copied: cell data, refined and unrefined cells, everything related to load balancing, user neighborhoods.", "quantifier": "every grid, every history before the copy and every history after it, copies of copies included, any two types of cell data", "why_tests_cant": "the copy shares dozens of members with the original after an arbitrary history; a stale or missing one only shows in later calls", "anchors": ["dccrg.hpp:321-460"]}
{"id": "C62", "title": "Programs compiled with DEBUG never end because of the library's own checks", "statement": "With DEBUG defined the library checks its state at the end of initialize, load balancing, refinement and neighborhood changes and ends the program when a check fails: all processes know the same cells and owners, neighbor lists of every neighborhood equal newly computed ones, levels of neighbors differ by at most one, process boundaries contain exactly the cells with neighbors across, data exist exactly for local cells, pinned cells are where they were pinned, no neighbor is at offset zero. None of these checks ever fails in a program that uses the API as documented.", "quantifier": "every grid that meets the documented limits, every history of calls and every process", "why_tests_cant": "tests compiled with DEBUG only run the checks on the histories of the tests; the claim is about all histories", "anchors": ["dccrg.hpp:12415-13003", "dccrg.hpp:8426-8470", "dccrg.hpp:3845-3862", "dccrg.hpp:4135-4230", "dccrg.hpp:10684-10717"]}
{"id": "C63", "title": "Calls that take a coordinate act on the existing cell that contains it", "statement": "get_existing_cell(coordinate), refine_completely_at, unrefine_completely_at and dont_unrefine_at act on the one existing cell whose box contains the coordinate, at whatever refinement level it is, also when the coordinate is outside of a periodic dimension. They return an error (or false) and change nothing when no existing cell contains the coordinate; the calls ending in _at also do nothing and return false when the process does not own the cell.", "quantifier": "every grid within the documented limits, every history of calls, every process, every coordinate including NaN and every geometry", "why_tests_cant": "tests try a few coordinates on one refined grid; the claim is about all coordinates, all refinements and all geometries, including coordinates on faces of cells", "anchors": ["dccrg.hpp:3450-3527", "dccrg.hpp:6479-6499", "dccrg.hpp:11379-11412"]}
{"id": "C64", "title": "The vtk file describes exactly the local cells", "statement": "The file that write_vtk_file writes on a process describes exactly the cells of the process in ascending order, each as a voxel whose eight corners are those given by the geometry.", "quantifier": "every grid within the documented limits, every history of calls, every process and every geometry, any number of local cells", "why_tests_cant": "tests only look at files of small grids by eye or with a viewer; the claim is about files of all grids including numbers of cells and coordinates that tests never reach", "anchors": ["dccrg.hpp:3375-3444"]}
{"id": "C65", "title": "Updates can be overlapped with computation on inner cells", "statement": "A program that starts updates of copies of remote neighbors, changes only inner cells until it has waited for receives and sends, and uses copies only after waiting for receives, computes the same data on every process as the program that makes every update at once, whatever the order in which messages are sent and received, and never deadlocks.", "quantifier": "every grid within the documented limits, every history of calls, all programs of starts, waits and computations with the same starts and waits on every process, several updates and neighborhoods at the same time, one message per cell or per process, every interleaving of processes and messages", "why_tests_cant": "the result depends on when the MPI library reads and writes the data, a test only sees one order", "anchors": ["dccrg.hpp:5088-5490", "dccrg.hpp:10753-11262"]}
{"id": "C66", "title": "Timing of messages does not affect moved data", "statement": "In any sequence of neighbor data updates, load balancing transfers and commits, with send_single_cells on or off for each, the data that every process ends each call with is the same for every order in which messages are sent and arrive, including messages of different calls overtaking each other between different processes; no order leaves a process waiting forever, and cells that a process sends are not overwritten by what it receives in the same call.", "quantifier": "all grids, histories, partitioner answers, sequences of calls, process counts and interleavings of messages", "why_tests_cant": "the number of interleavings is exponential and a test run sees one of them", "anchors": ["dccrg.hpp:10758-11264 start_user_data_transfers, wait_user_data_transfers", "dccrg.hpp:3987-4020 continue_balance_load", "dccrg.hpp:10600-10664 execute_refines", "dccrg.hpp:5102-5455 start_remote_neighbor_copy_updates"]}
{"id": "C67", "title": "Requests do the same with and without DEBUG", "statement": "refine_completely, unrefine_completely, dont_refine and dont_unrefine return the same value and record the same requests in programs compiled with DEBUG as in programs compiled without it, for every cell id.", "quantifier": "every grid within the documented limits, every history of calls, every process and every cell id", "why_tests_cant": "tests are compiled one way or the other and only request changes of a few cells; the claim relates two programs for all states", "anchors": ["dccrg.hpp:2511-2609 refine_completely", "dccrg.hpp:2637-2732 unrefine_completely", "dccrg.hpp:2757-2812 dont_unrefine", "dccrg.hpp:2821-2861 dont_refine", "dccrg_mapping.hpp:339-357 get_child"]}
{"id": "C68", "title": "The outcome of a commit follows from the set of requests", "statement": "Which cells exist after stop_refining is determined by which cells existed and by which cells were requested to be refined, unrefined, not refined and not unrefined since the previous commit. It does not depend on the order of the requests, on which processes own the cells, on the number of processes or on the data of cells.", "quantifier": "every grid within the documented limits, every two histories that lead to the same cells on any two numbers of processes with any distribution of cells, every two lists of requests with the same meaning", "why_tests_cant": "relates two executions on different numbers of processes for all orders of requests; a test compares a few", "anchors": ["dccrg.hpp:2511-2609 refine_completely", "dccrg.hpp:2637-2732 unrefine_completely", "dccrg.hpp:2757-2812 dont_unrefine", "dccrg.hpp:2821-2861 dont_refine", "dccrg.hpp:3538 stop_refining"]}
{"id": "C69", "title": "Programs give the same result on any number of processes", "statement": "A program made of steps 'update copies of remote neighbors, then compute a new value for every local cell from its own data and the data of its neighbors', 'update copies, request refinement and unrefinement of local cells by a criterion on the same data, commit, then give new cells data from the removed ones' and additions and removals of neighborhoods ends with the same cells and the same data in every cell, whatever the number of processes, wherever load balancing puts the cells and whenever it happens, and in whichever order processes treat their cells. Each step gives what it would give if all cells were on one process. Every such program can be executed.", "quantifier": "every grid within the documented limits, every program, every functions and criteria used in it, every two numbers of processes, every two distributions of cells at all times, every interleaving of calls", "why_tests_cant": "compares all executions of all programs on all numbers of processes; a test compares one program on a few", "anchors": ["dccrg.hpp:836 get_neighbors_of", "dccrg.hpp:768 operator[]", "dccrg.hpp:978 update_copies_of_remote_neighbors", "dccrg.hpp:2511-2609 refine_completely", "dccrg.hpp:2637-2732 unrefine_completely", "dccrg.hpp:2757-2812 dont_unrefine", "dccrg.hpp:3538 stop_refining", "dccrg.hpp:3574 get_removed_cells", "dccrg.hpp:1046 balance_load", "dccrg.hpp:6546 add_neighborhood"]}
{"id": "C70", "title": "Geometries in doubles are exact for starts, lengths and coordinates that are multiples of a power of two", "statement": "Geometries compute with 64 bit floating point numbers. If the start and the cell length of a Cartesian geometry (the coordinates of a stretched geometry) are multiples of a power of two, and the grid is short enough for the numbers of the smallest cells in those units to fit in doubles, then start, end, lengths, centers and corners of all cells are the exact numbers, so that for every double inside of the grid there is exactly one cell of each level (and one existing cell) whose box contains it as compared by the program, and boxes of children fill the box of their parent. get_cell then gives the cell of the requested level whose box contains the coordinate: for every double in a grid without geometry, in a stretched grid (after its start) and in a Cartesian grid that starts at zero, and in other Cartesian grids for coordinates whose distance from the start is a double. get_cell of the center of a cell is the cell. get_real_coordinate moves coordinates that are multiples of the same power of two by exact grid lengths.", "quantifier": "all grids within the documented limits, all such parameters, all doubles including infinities and NaN, all levels and cells", "why_tests_cant": "every double of the grid, every combination of parameters", "anchors": ["dccrg_cartesian_geometry.hpp:244-560", "dccrg_no_geometry.hpp:141-400", "dccrg_stretched_cartesian_geometry.hpp:172-641"]}
{"id": "C71", "title": "Lists of cells, processes, weights and announced moves tell the state", "statement": "get_all_cells gives every cell known to the process once, in increasing order if sorting is requested, the same cells on all processes. get_process gives the owner of a cell, -1 for cells that do not exist, the same on all processes. get_cell_weights gives exactly the weights set. Between initialize_balance_load and finish_balance_load the cells announced as added and removed are exactly those whose owner changes, each once, and a process can access the data of its cells and of those it will get. cell_overlaps_local is true only for cells that share a part of the grid with a local cell, and, while the level 0 cell there exists, for all of them; it is false for invalid ids; get_cells_overlapping_local is the filter by it.", "quantifier": "every grid, every reachable state, every process, every cell id, every load balancing", "why_tests_cant": "all states that calls can produce and all ids; tests look at the lists of a few grids", "anchors": ["dccrg.hpp:3612-3644 get_all_cells", "dccrg.hpp:5941-5957 get_process", "dccrg.hpp:3654-3708 cell_overlaps_local", "dccrg.hpp:6441-6470 get_cells_added_by_balance_load", "dccrg.hpp:6505-6517 get_cell_weights"]}
{"id": "C72", "title": "Cell data can be transferred in parts and in several stages", "statement": "get_mpi_datatype may transfer any part of the data of a cell, and load balancing may call continue_balance_load any number of times with changes of data by the user in between. It then ends well exactly if every message fits in the memory that the receiver provides for it. Cells have the same owners as after load balancing in one stage, a cell that stays has the data that its process made of it, a cell that moves has the result of the successive transfers and changes, starting at the receiver from default data, and nothing else differs. If the parts sent make up the data then the result is that of sending all of it; in particular data of variable length arrives if its length is sent first, memory is made for it and the items are sent in the next stage, and cannot be received without the first stage. An update of copies leaves in each copy the result of the transfer from the owner's data to what the copy held before. In both cases the grid is as after ordinary calls. One message per process gives the same as one message per cell if sizes agree on both sides.", "quantifier": "every reachable state, every type of data, every sequence of stages, every transfer and change of data, every partition", "why_tests_cant": "all data types, transfers, stages and distributions of cells; the test sends the items of a vector in five stages", "anchors": ["dccrg.hpp:10758-11264 start_user_data_receives, start_user_data_sends", "dccrg.hpp:3987-4020 continue_balance_load", "dccrg.hpp:978-1014 update_copies_of_remote_neighbors", "dccrg.hpp:6819-6843 set_send_single_cells"]}
{"id": "C73", "title": "The game of life programs play the game of life", "statement": "The programs game_of_life.cpp (which computes while data is being transferred), simple_game_of_life.cpp and game_of_life_with_output.cpp, on a grid of cells of refinement level 0, end on every process after any order of messages, never block, and then each cell is alive exactly if its square is alive after as many turns of Conway's game from the first board: without joined ends, one cell thick and with neighborhoods of length 1, the game with eight neighbors; otherwise the game with one neighbor for each offset, ends of periodic dimensions joined. simple_game_of_life.cpp never prints \"Internal error!\", on any number of processes, after any number of turns.", "quantifier": "every reachable state of a grid with only level 0 cells, every number of processes and partition, every first board, every number of turns, every interleaving of processes and messages, one message per cell or per process", "why_tests_cant": "all partitions, boards and interleavings; the tests play one board with a few processes", "anchors": ["examples/game_of_life.cpp:38-139", "examples/simple_game_of_life.cpp:58-159", "examples/game_of_life_with_output.cpp:37-161"]}
{"id": "C74", "title": "dc2vtk shows the game that was saved", "statement": "Converting a file saved by game_of_life_with_output with dc2vtk gives a vtk file in which every cell of the grid appears exactly once, with the corners that the saved grid's geometry gives it, and with the is_alive value its owner saved; so after k turns of the program a cell is shown as alive exactly when it is alive after k turns of the game. Files of the other byte order are skipped, and each file on the command line is converted by exactly one process. A file whose end is missing should be refused; it is not.", "quantifier": "for all grids, boards, numbers of turns and processes, owners of cells, orders of messages and of writes to the file, both byte orders, up to 2^29 cells", "why_tests_cant": "The example programs have no tests: their output is inspected by eye, on one board with one distribution of cells and one order of messages.", "anchors": ["examples/dc2vtk.cpp:43-320", "examples/game_of_life_with_output.cpp:23-130", "dccrg.hpp:1117-1676"]}
{"id": "C75", "title": "The advection solver keeps the total of what it moves", "statement": "In the solver of tests/advection every time step, of any length, and every change of the grid leaves the sum over all cells of volume times density exactly as it was (without rounding), whatever the velocities, the refinement of the grid, the requested changes, the owners of cells and the moves of cells between processes. On every process calculate_fluxes and apply_fluxes use no null pointer and do not call abort(), and give each cell the density that results from the flow through each part of each of its faces exactly once. max_time_step gives the smallest time of crossing a cell, however cells are divided between processes. Densities stay nonnegative as long as no cell loses more than it has in one step; the range of cfl that the program accepts should ensure this but does not. A simulation until tmax should advance the solution by tmax; it advances it by cfl * tmax.", "quantifier": "every reachable state, velocities and densities, time steps, sequences of steps, criteria of adaptation, numbers of processes and owners of cells", "why_tests_cant": "The tests run one initial condition and look at the output; conservation depends on every pair of cells of different size and on every pair of processes agreeing about the faces between them.", "anchors": ["tests/advection/solve.hpp:44-333", "tests/advection/adapter.hpp:190-325", "tests/advection/2d.cpp:319-443"]}
{"id": "C76", "title": "Cached iterators stay right", "statement": "The iterators of the default and of all user neighborhoods are kept until they are made anew. At all times, after any calls, they show exactly the cells and neighbors which the process has then; the data pointer of every cell and of every neighbor of an own cell is not null and points to the data that operator[] gives for it, and other data pointers are null exactly if operator[] gives null. Values which users have calculated for cells and neighbors (Additional_Cell_Items, Additional_Neighbor_Items) are the ones that would be calculated now if they depend on which cells exist, their owners and neighbors; in particular is_local of tests/advection is right at all times. After every commit of refinement and every load balancing they are right whatever they depend on. Centers of cells calculated in this way should also be right after set_geometry, but are those of the former geometry. Between initialize_balance_load and finish_balance_load data pointers of own cells stay right, those of remote cells should be null or valid, but point to freed data.", "quantifier": "every sequence of calls from initialize on, grids, numbers of processes, neighborhoods, cell data, functions calculating additional items, answers of the partitioner", "why_tests_cant": "Tests use iterators right after they have been made; whether something cached is still right depends on all calls made in between, on all processes.", "anchors": ["dccrg.hpp:11418-11769", "dccrg.hpp:7455-7575", "dccrg.hpp:544", "dccrg.hpp:586-600", "dccrg.hpp:3880-3893", "dccrg.hpp:4182-4200", "dccrg.hpp:6685", "dccrg.hpp:10727-10745", "tests/advection/cell.hpp:153-173"]}
{"id": "C77", "title": "The Poisson solver does not depend on processes and solves the equation it is given", "statement": "On every grid and on every number of processes solve() and solve_failsafe() of tests/poisson end without abort, and in exact arithmetic give every cell the same result for every number of processes, distribution of cells, order of local cells and content of old copies of remote cells. The right hand side of all cells and all values of cells that are not solved stay as they were; a cell is solved if and only if it is in cells_to_solve and has a face neighbor that is not skipped. The equation of a solved cell is the sum over its sides of a positive factor times the difference between the mean of the neighbors on that side and the cell: constants solve the homogeneous equation also where cell sizes change, and second derivatives of quadratic functions are exact between neighbors in a row, also in stretched geometries. In all iterations r0 is the residual of the current solution if boundary cells have p0 == 0. solve_failsafe stops changing values exactly at solutions, and without sources gives values between those of the neighbors. The second residual should be made with the transposed matrix, which is true only if no face neighbors differ in size. After any calls with the same arguments on the same grid, and whatever was written to right hand sides and solutions in between, a call with cache_is_up_to_date gives what a call without it gives; the documentation asks only that the grid and cells_to_skip are the same, which is not enough if the cells to solve change. A solution given as the first guess should stay, the solution with the smallest residual should be kept, and constants should be solutions beside skipped cells: none of these holds in general.", "quantifier": "every reachable state of every grid, number of processes, distribution of cells, cell data, lists of cells to solve and to skip, positive lengths of cells, norms, limits and numbers of iterations", "why_tests_cant": "Tests compare a few functions on a few grids with analytic solutions up to tolerances, on the processes they happen to run on; that all distributions give the same and which equations are solved are statements about all grids and all right hand sides.", "anchors": ["tests/poisson/poisson_solve.hpp:47-150", "tests/poisson/poisson_solve.hpp:251-522", "tests/poisson/poisson_solve.hpp:531-634", "tests/poisson/poisson_solve.hpp:674-819", "tests/poisson/poisson_solve.hpp:826-977", "tests/poisson/poisson_solve.hpp:979-1054", "dccrg.hpp:2883-3130", "tests/poisson/poisson_solve.hpp:243-265"]}
{"id": "C78", "title": "Cells created along a space filling curve: every cell once, equal parts, whatever the caching", "statement": "With USE_SFC initialize() succeeds for every number of caching batches greater than zero: every index of the curve that is looked up is in the range cached last and every cached range lies on the curve. Every level 0 cell and no other cell is created, on exactly one process and known to all; process p gets the positions of the curve from p * (T / np) + max(0, p - (np - T mod np)) on, that is consecutive parts that differ in size by at most one cell. The number of batches changes nothing in the grid that is created. All other properties of grids hold from this start as well, and every program gives the same cells and data as from the default distribution, on any curve and number of processes.", "quantifier": "every grid, number of processes, curve that visits each cell once, number of batches, program run afterwards", "why_tests_cant": "The branch is compiled only when the curve library is present, and the batches' borders meet the processes' borders differently for each size of grid, number of batches and number of processes.", "anchors": ["dccrg.hpp:485-562", "dccrg.hpp:8142-8286"]}
{"id": "C79", "title": "What the four calls that request refinement return", "statement": "refine_completely returns true exactly for cells owned by the calling process that are at maximum level, or that neither are nor have a larger neighbor marked by dont_refine on this process; then the cell is to be refined, or at maximum level dont_unrefine is done instead. dont_refine and dont_unrefine return true exactly for cells that exist on some process. unrefine_completely returns false exactly for cells not owned by the process, and for those of whose siblings, in order, one has children and none before it is to be refined or protected. Calls that return false change nothing; after dont_refine of a cell refine_completely refuses it and its smaller neighbors. Documentation that does not hold: that refining a cell again returns false, that refining at maximum level does nothing, that unrefining returns false whenever a sibling has children, that dont_refine and dont_unrefine refuse cells of other processes.", "quantifier": "every reachable state of every grid, process, cell number (also cells that do not exist)", "why_tests_cant": "The answer depends on everything requested before on this process and on the neighborhood of the cell; the tests ignore the returned values or check one case.", "anchors": ["dccrg.hpp:2482-2609", "dccrg.hpp:2613-2732", "dccrg.hpp:2735-2808", "dccrg.hpp:2811-2861"]}
{"id": "C80", "title": "How the advection program chooses which cells to refine and unrefine", "statement": "After an update of remote copies, check_for_adaptation on each process runs without a null pointer or abort() and puts into its sets: to be refined exactly the own cells whose largest relative difference of density to a counted neighbor exceeds (level + 1) * diff_increase; to be unrefined exactly the own cells above level 0 below unrefine_sensitivity times that, all of whose own siblings are too; and one cell of every family in between none of whose own cells is to be refined. The difference of a cell is over all counted neighbors, local and remote, whatever max_diff was before and in whatever order the cells are visited, although a pair is handled from one side or both. The calls of all processes together, in any order, give the same cells as if every cell requested its own change by its own neighborhood alone, so the result is the same on any number of processes. Refuted: that every face neighbor counts; that a difference exactly at a limit follows the table in the documentation; that for every sensitivity cells at their target level are not unrefined.", "quantifier": "every reachable grid on any number of processes, all densities (exact rationals), all limits, all orders of cells and calls", "why_tests_cant": "The sets of different processes overlap in families spread over processes, and the result must not depend on iteration order or distribution; the test only looks at pictures.", "anchors": ["tests/advection/adapter.hpp:36-178", "tests/advection/adapter.hpp:187-223"]}
{"id": "C81", "title": "The game of life with refined cells is the game on cells of level 0", "statement": "On a board that is one cell of level 0 thick in some direction, with neighborhoods of length 1 and cells refined at most once, get_live_neighbors on all processes, in whatever order the cells are visited and wherever they are, never reaches abort() or a null pointer, and afterwards every cell is as alive as its parent of level 0 is one turn later when squares are counted once. With any refining, unrefining and load balancing between turns this holds for any number of turns, so the comparison of every cell with a grid without refinement in unrefined2d.cpp never fails. Where joined directions are at least three cells long this is Conway's game; on a joined board of length two it is not. The comment that the function works if cells have been refined at most once is refuted: with three dimensions the list of eight live neighbors runs out and the program aborts.", "quantifier": "all flat boards, periodicities, numbers of processes, reachable grids with levels 0 and 1, starting patterns, orders of cells, numbers of turns and sequences of grid changes and load balances", "why_tests_cant": "The live neighbors of a level 0 cell are collected from up to eight children on different processes through lists changed in place; the test plays 25 turns of some patterns with one sequence of refinements.", "anchors": ["tests/game_of_life/solve.hpp:31-172", "tests/game_of_life/solve_optimized.hpp:33-150", "tests/game_of_life/cell.hpp:34-44", "tests/game_of_life/refine.hpp:48-131", "tests/game_of_life/unrefined2d.cpp:189-248"]}
{"id": "C82", "title": "Which options Zoltan has after any calls", "statement": "After initialize() and any later calls every option of Zoltan has the value last accepted by set_partitioning_option for its name, otherwise the value initialize() gives, with the method last given to set_load_balancing_method before initialize(); methods given later change nothing in Zoltan, and whether a failing Zoltan is tolerated is decided by initialize() alone. The options that dccrg needs keep their values if names are written in upper case; setting them throws and changes nothing. Refuted: that the user cannot change them (names in lower case pass the check and Zoltan does not distinguish case), that setting them silently does nothing, that get_load_balancing_method tells the method Zoltan uses, that a copy tells the same method as the original, that load balancing can be switched off by an option.", "quantifier": "all sequences of these calls, names and values, copies of grids included", "why_tests_cant": "all call histories and names; tests set one method before initialize", "anchors": ["dccrg.hpp:5622-5665", "dccrg.hpp:7867-7914", "dccrg.hpp:8388-8416", "dccrg.hpp:354-420"]}
{"id": "C83", "title": "Particles move between cells the same way on any number of processes", "statement": "In tests/particles/simple.cpp the two updates with resize() between them never fail and give every copy that a process needs exactly the particles of the cell; if all cells are of the same size these are all copies that propagation uses. If all cells of a process, copies included, hold the particles of the owners, and no particle enters a neighbor that the process does not have, propagate_particles never meets a null pointer and leaves in every own cell the same particles, up to order, as any other number of processes does; number_of_particles equals their number, and particles that came from other cells lie inside their new cell. On one process, if every entered cell is listed once among the neighbors of the cell that is left, no particle is lost or made. If no two particles that follow each other in a cell leave it, all are in the right cell afterwards. Refuted: on the grid of the program, one cell long in two periodic directions, no particle is made (nine copies are); all particles that left a cell are moved (the one after an erased particle is not looked at); copies of remote neighbors can be propagated (a particle of a copy that enters a cell unknown to the process is added through a null pointer); later steps are independent of processes as well (the order of particles in a cell depends on processes and decides which of them is not looked at).", "quantifier": "all reachable grids, numbers and choices of processes, particle types, motions, wrappings that do nothing the second time, placements, numbers and orders of particles", "why_tests_cant": "simple.cpp writes pictures of one random start on three cells and compares nothing; lists change while they are scanned, over all items of all_cells() in sequence", "anchors": ["tests/particles/simple.cpp:52-98", "tests/particles/simple.cpp:284-296", "tests/particles/cell.hpp:31-84"]}
{"id": "C84", "title": "The serial Poisson solver finds the one solution on a ring of cells", "statement": "After initialize() with any number of cells and any positive width, and any writes of the right hand side, solve() of Reference_Poisson_Solve takes the average away from the right hand side and gives values whose second differences over the squared width are exactly that right hand side in all cells, cell 0 following the last one, with 0 in the last cell. No other values with 0 in the last cell do that, and none at all do it for a right hand side whose total is not 0. Solving again changes nothing that can be read. solve() ends the program exactly before initialize(). On a row of same-sized cells joined at its ends, along any of the three directions and on any number of processes, the equation of the parallel solver is the same, so its exact solutions that are 0 in the last cell are those of the serial solver. offset_solution() takes the value in the last cell away from every cell on every process and so makes any exact solution the serial one; the norm of the difference is 0 exactly then. Refuted: that the equation with the given right hand side is solved (it is replaced if its total is not 0).", "quantifier": "all numbers of cells, widths, right hand sides and sequences of calls", "why_tests_cant": "the recurrence is closed to a ring only by the starting value, which has to be right for every size and right hand side; tests compare one sine with a tolerance that grows", "anchors": ["tests/poisson/reference_poisson_solve.hpp:37-206", "tests/poisson/poisson1d.cpp:140-205", "tests/poisson/poisson1d.cpp:41-122"]}
{"id": "C85", "title": "One function says what is transferred of a cell", "statement": "For every combination of get_mpi_datatype members of the cell class (with or without arguments, const or not) exactly one way of getting the transfer information is chosen: no call is ambiguous or without a match, a member that is called exists, and the built-in types are used exactly when there is no member. A member that is not const is called whenever there is one; the member with arguments is called exactly if it is not const, or is const and no modifiable one without arguments exists. For cells of built-in types all bytes are transferred if the number of elements of an array is below 2^31. Refuted: that the member with arguments always has precedence (documented; a const member with arguments loses to a non-const one without); that large arrays are transferred (the count becomes negative). Arrays of bool cannot be cells although bool can.", "quantifier": "all classes of cells and all built-in types and array sizes", "why_tests_cant": "tests have a few fixed classes, and each combination needs its own class to compile; the wrong choice still compiles and transfers something", "anchors": ["dccrg_get_cell_datatype.hpp:37-340"]}
