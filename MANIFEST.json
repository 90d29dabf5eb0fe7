{
 "claims": [
  {
   "property": "C01",
   "status": "proved",
   "theorems": [
    "transpose"
   ],
   "note": "Any element type, any shape including empty."
  },
  {
   "property": "C02",
   "status": "partial",
   "theorems": [
    "block_write_read_partial",
    "block_write_wraps_refuted"
   ],
   "note": "False as stated: position + size can wrap around 2^64 and the block is then accepted silently (block_write_wraps_refuted). Proved for all positions where the sum does not wrap."
  },
  {
   "property": "C03",
   "status": "partial",
   "theorems": [
    "index_sets_partial",
    "index_sets_refuted"
   ],
   "note": "False as stated: index = size is accepted (wrong value or read past the storage), and in-range index sets longer than the matrix are rejected (index_sets_refuted). Proved for index sets not longer than the matrix; indices that are negative or larger than the size are rejected."
  },
  {
   "property": "C04",
   "status": "proved",
   "theorems": [
    "block_permute"
   ],
   "note": "Any element type, any block layout, any pair of permutations."
  },
  {
   "property": "C05",
   "status": "partial",
   "theorems": [
    "concatenate_segments_partial",
    "segment_write_read_partial",
    "segments_wrap_refuted"
   ],
   "note": "False as stated: start + length can wrap around 2^64 (segments_wrap_refuted). Proved for all starts and lengths whose sum does not wrap."
  },
  {
   "property": "C06",
   "status": "proved",
   "theorems": [
    "block_permute_mulv"
   ],
   "note": "Equality of outcomes, also when the product raises an exception for an empty matrix."
  },
  {
   "property": "C07",
   "status": "partial",
   "theorems": [
    "products_partial",
    "empty_products_refuted"
   ],
   "note": "False for empty inner dimension: BLAS rejects leading dimension 0 (empty_products_refuted). Proved for all nonempty shapes; non-conforming shapes raise invalid_argument."
  },
  {
   "property": "C08",
   "status": "partial",
   "theorems": [
    "solve_partial",
    "solve_singular_refuted"
   ],
   "note": "False in the singular case: INFO is only logged (solve_singular_refuted). Proved for every nonsingular system and any LAPACK meeting the dgesv contract; the contract is shown satisfiable by Gaussian elimination."
  },
  {
   "property": "C09",
   "status": "partial",
   "theorems": [
    "access_partial",
    "access_refuted"
   ],
   "note": "False at index = size (access_refuted). Proved for all other indices."
  },
  {
   "property": "C10",
   "status": "partial",
   "theorems": [
    "get_range_refuted",
    "get_range_partial"
   ],
   "note": "False: getRange returns the indices instead of the entries (get_range_refuted). get_range_partial characterises exactly when the result is right."
  },
  {
   "property": "C11",
   "status": "partial",
   "theorems": [
    "rows_columns_partial",
    "get_col_refuted"
   ],
   "note": "getCol is wrong for every non-square matrix (get_col_refuted). getRow, setRow, setColumn proved for all shapes, getCol for square ones."
  },
  {
   "property": "C12",
   "status": "partial",
   "theorems": [
    "vector_arithmetic",
    "matrix_arithmetic_partial",
    "matrix_times_assign_refuted"
   ],
   "note": "Matrix *= scalar adds instead of multiplying (matrix_times_assign_refuted). All other operators proved; division in exact arithmetic by nonzero divisors."
  },
  {
   "property": "C13",
   "status": "partial",
   "theorems": [
    "coarse_to_fine_partial",
    "coarse_to_fine_refuted"
   ],
   "note": "False for 2 and 4 fine cells (coarse_to_fine_refuted). Proved for every even number of fine cells >= 6."
  },
  {
   "property": "C14",
   "status": "partial",
   "theorems": [
    "fine_to_coarse_partial",
    "fine_after_coarse_refuted"
   ],
   "note": "Averaging and conservation proved for every n >= 1; reproduction after coarse-to-fine proved for n >= 3 and false for n = 2 (fine_after_coarse_refuted)."
  },
  {
   "property": "C15",
   "status": "proved",
   "theorems": [
    "block_diagonal"
   ],
   "note": "Entries for any list of blocks; product for any list with at least one column in total."
  },
  {
   "property": "C16",
   "status": "proved",
   "theorems": [
    "merge_flux_continuous"
   ],
   "note": "Any four child operators, equal or different resolutions (the coarsest sets the interface resolution, at least 3 when interpolation is needed). Also uniqueness of the interface values. Holds for every dense solver meeting the LAPACK contract."
  },
  {
   "property": "C17",
   "status": "proved",
   "theorems": [
    "merged_operator"
   ],
   "note": "Same generality as C16."
  },
  {
   "property": "C18",
   "status": "proved",
   "theorems": [
    "upwards_particular"
   ],
   "note": "For the operators left by the merge and arbitrary load fluxes."
  },
  {
   "property": "C19",
   "status": "proved",
   "theorems": [
    "downward_data"
   ],
   "note": "Spelled out piece by piece; with and without homogeneous-rhs; includes a parent that was itself coarsened."
  },
  {
   "property": "C20",
   "status": "partial",
   "theorems": [
    "solver_glued_partial",
    "solver_small_leaves_refuted"
   ],
   "note": "False for one cell per leaf side on adaptive trees, where the build raises (solver_small_leaves_refuted). Proved for side >= 3 on every tree and for every side when siblings are refined equally."
  },
  {
   "property": "C21",
   "status": "proved",
   "theorems": [
    "history_independent"
   ],
   "note": "Any tree, any solver, any preceding calls under any setting of homogeneous-rhs; failures agree too."
  },
  {
   "property": "C22",
   "status": "partial",
   "theorems": [
    "rebuild_refuted",
    "rebuild_partial",
    "rebuild_cached_refuted"
   ],
   "note": "False on adaptive meshes: the coarsening counters are not reset and a second build reads out of bounds (rebuild_refuted); false with cache-operators, which keeps the first operator (rebuild_cached_refuted). Proved for meshes whose siblings are refined equally, without the cache."
  },
  {
   "property": "C23",
   "status": "partial",
   "theorems": [
    "cache_equal_leaves",
    "leaf_operator_scales",
    "cache_equal_leaves_fish",
    "cache_refined_refuted",
    "cache_refuted",
    "cache_partial"
   ],
   "note": "False when the leaf operator varies in space: all leaves get the first one (cache_refuted). False for Laplace on a refined mesh: the run with the cache does not return u = x (cache_refined_refuted), since the operator of a leaf s times as large is 1/s times the operator (leaf_operator_scales). Proved for solvers with one operator for all leaves, cache empty or holding it (cache_partial), and so for constant coefficients and leaves of equal size (cache_equal_leaves, cache_equal_leaves_fish)."
  },
  {
   "property": "C24",
   "status": "proved",
   "theorems": [
    "coarsening_sizes"
   ],
   "note": "All trees, n >= 3, all settings of both options; every stage returns."
  },
  {
   "property": "C25",
   "status": "proved",
   "theorems": [
    "mixed_boundary",
    "dirichlet_boundary",
    "mixed_solution"
   ],
   "note": "Any root operator; and for the whole solver on every tree, with the flux of the glued solution. Dirichlet case for any root."
  },
  {
   "property": "C26",
   "status": "partial",
   "theorems": [
    "homogeneous_partial",
    "homogeneous_refuted"
   ],
   "note": "False for solveStage with boundary functions: on a refined mesh it throws because the root has no flux vector (homogeneous_refuted). Proved for solveStage with boundary data, every mesh, for a solver whose flux vanishes without load."
  },
  {
   "property": "C27",
   "status": "proved",
   "theorems": [
    "five_point_system",
    "ghost_cells_exist",
    "five_point_solution"
   ],
   "note": "Square patches with n >= 2 cells per side, all coefficient functions; the returned vector solves the discrete problem whenever that has at most one solution."
  },
  {
   "property": "C28",
   "status": "proved",
   "theorems": [
    "flux_affine",
    "flux_affine_fish"
   ],
   "note": "Five-point stencil and FISHPACK, whenever the cell problem is uniquely solvable."
  },
  {
   "property": "C29",
   "status": "proved",
   "theorems": [
    "flux_direction",
    "shared_face",
    "shared_face_vertical",
    "flux_exact_linear"
   ],
   "note": "Direction of all four one-sided differences, agreement across shared faces in both directions, exactness for linear solutions with variable coefficients."
  },
  {
   "property": "C30",
   "status": "partial",
   "theorems": [
    "solvers_agree_partial",
    "solvers_agree_refuted",
    "solvers_agree_lambda_refuted"
   ],
   "note": "False for other coefficients: the FISHPACK branch ignores alpha and beta and takes lambda at the origin (solvers_agree_refuted, solvers_agree_lambda_refuted, for every routine meeting the FISHPACK contract). Proved for alpha = beta = 1 and constant lambda, n >= 3."
  },
  {
   "property": "C31",
   "status": "partial",
   "theorems": [
    "rectangular_partial",
    "rectangular_refuted",
    "rectangular_rejected"
   ],
   "note": "False: every patch with different cell numbers raises out_of_range or reads past the end of the boundary data (rectangular_refuted, rectangular_rejected). Proved for equal cell numbers and any rectangle."
  },
  {
   "property": "C32",
   "status": "proved",
   "theorems": [
    "leaves_tile_domain"
   ],
   "note": "Every tree of depth at most 29 (the p4est limit), every contiguous partition, every rectangle; exact rational arithmetic. Stated on the nodes that the constructor leaves in the maps of all ranks."
  },
  {
   "property": "C33",
   "status": "proved",
   "theorems": [
    "parent_inverts_children"
   ],
   "note": "Every node. Exact rational arithmetic."
  },
  {
   "property": "C34",
   "status": "proved",
   "theorems": [
    "paths_identify_quadrants",
    "factory_path"
   ],
   "note": "Every valid quadrant up to level 29 and every node made by the constructor, for every factory that keeps paths."
  },
  {
   "property": "C35",
   "status": "partial",
   "theorems": [
    "parallel_merge_split_order_partial",
    "traversal_order_partial",
    "merge_split_order_partial",
    "data_traversals",
    "leaves_same_order",
    "traversals_visit_owned_partial",
    "traversal_visits_every_owned_node_refuted"
   ],
   "note": "A rank without leaves between ranks with leaves owns nodes but its traversals visit nothing (traversal_visits_every_owned_node_refuted). Proved for every rank with respect to the quadrants that contain one of its leaves, which are all its nodes if it owns a leaf. merge and split: order proved for a rank owning the whole tree with any callback, and for every rank with leaves of a parallel run without gaps with callbacks that compute from path and data."
  },
  {
   "property": "C36",
   "status": "proved",
   "theorems": [
    "map_behaves_like_tree",
    "stages_on_map"
   ],
   "note": "Serial run (one rank owns the tree), every tree and all callbacks, including callbacks with state, callbacks that stop the descent or fail. Also instantiated with the three stages of the direct solver."
  },
  {
   "property": "C37",
   "status": "partial",
   "theorems": [
    "parallel_equals_serial_partial",
    "construction_completes",
    "parallel_merge_completes_refuted",
    "solve_on_leafless_rank_refuted",
    "parallel_cached_build_refuted"
   ],
   "note": "False: a rank without leaves between ranks with leaves makes merge hang (parallel_merge_completes_refuted); a rank without leaves dereferences a missing root in the solve stage (solve_on_leafless_rank_refuted); with cache-operators ranks keep different operators (parallel_cached_build_refuted). Proved, for every order of collectives: any sequence of merges, splits and root accesses on every tree and every contiguous partition without gaps, for callbacks that compute from path and data and whose serial run succeeds; construction for every contiguous partition. That broadcasting is undefined for empty data and that a null communicator is named is left to C52 and C74."
  },
  {
   "property": "C38",
   "status": "proved",
   "theorems": [
    "broadcast_root_agreed"
   ],
   "note": "Every family of every contiguous distribution, gaps allowed."
  },
  {
   "property": "C39",
   "status": "proved",
   "theorems": [
    "ownership",
    "created_from_parent",
    "parent_range_spanned",
    "leaf_owned_once"
   ],
   "note": "Every tree of depth at most 29, every contiguous partition including empty ranks, every factory that keeps paths, levels and ranges."
  },
  {
   "property": "C40",
   "status": "partial",
   "theorems": [
    "traversal_operates_partial",
    "traversals_after_preorder_partial",
    "refined_mesh_traversals",
    "traversal_after_construction_refuted",
    "traversal_of_second_quadtree_refuted",
    "traversal_after_move_refuted"
   ],
   "note": "False: only traversePreOrder with a node callback sets the user pointer (three refutations: after construction, with two quadtrees on one forest, after move assignment). Proved: works once that traversal has run on a quadtree alone on its forest, in particular for the quadtree of a mesh after refineByFunction."
  },
  {
   "property": "C41",
   "status": "proved",
   "theorems": [
    "refinement_by_function"
   ],
   "note": "Every predicate, domain, cell count, levels (min_level at most 29). p4est_refine is a relation shown to have exactly one result; p4est_balance enters as: only refines, not deeper than the deepest quadrant present; p4est_partition as: changes owners only. p4est never refines beyond level 29, whatever max_level is."
  },
  {
   "property": "C42",
   "status": "partial",
   "theorems": [
    "exported_arrays_partial",
    "exported_offsets_wrong",
    "exported_arrays_describe_cells_refuted"
   ],
   "note": "False: offsets and types have four entries per cell (exported_arrays_describe_cells_refuted; exported_offsets_wrong: on every rank with a cell). Proved: numbers of cells and points, coordinates, connectivity, counter-clockwise corners, and the first ncells offsets and types, for every tree, rank and patch size. int counters do not overflow."
  },
  {
   "property": "C43",
   "status": "partial",
   "theorems": [
    "refine_again_partial",
    "refine_again_replaces_refuted"
   ],
   "note": "False: arrays are appended to (refine_again_replaces_refuted). Proved: exact content after a second refinement; it describes the new mesh exactly if there was no cell before on the rank."
  },
  {
   "property": "C44",
   "status": "proved",
   "theorems": [
    "mesh_functions_line_up"
   ],
   "note": "Every tree, contiguous partition, rank, function, and every later content of the leaves with unchanged grids and one value per cell; for a mesh object refined once (see C43)."
  },
  {
   "property": "C45",
   "status": "partial",
   "theorems": [
    "written_xml_reads_back_partial",
    "written_xml_reads_back_refuted"
   ],
   "note": "False: nothing is escaped (written_xml_reads_back_refuted: ill-formed text, and a value that is read as another attribute). Proved for every tree whose names, values and data need no escapes: the text has exactly one reading in the grammar of XmlSpec.v, with the same names, attributes, children, and data up to surrounding white space. Grammar: ASCII part of XML 1.0 without references, comments, CDATA, processing instructions, empty-element tags."
  },
  {
   "property": "C46",
   "status": "partial",
   "theorems": [
    "first_unstructured_output_partial",
    "first_rectilinear_output_partial",
    "unstructured_last_mesh_partial",
    "rectilinear_second_mesh_partial",
    "later_output_undefined",
    "output_twice_refuted",
    "output_without_cells_refuted",
    "mesh_output_many_times"
   ],
   "note": "False: after one call the writer holds a pointer to a destroyed node; every later call is undefined (later_output_undefined for all three writers, output_twice_refuted). Arrays without entries make the first call undefined (output_without_cells_refuted). Proved: the first call writes a complete file for every mesh and data with entries; Mesh::toVTK, which makes a new writer, may be called any number of times. A mesh given again: the unstructured writer writes the last one (unstructured_last_mesh_partial), the rectilinear one appends coordinates (rectilinear_second_mesh_partial)."
  },
  {
   "property": "C47",
   "status": "partial",
   "theorems": [
    "pieces_are_files_partial",
    "doubled_percent_partial",
    "percent_in_name_refuted",
    "long_name_refuted"
   ],
   "note": "False for base names with a percent sign (percent_in_name_refuted) and for long ones (long_name_refuted). Proved for every number of ranks and every other base name, mesh and data with entries; a name in which every percent sign is written twice names the right pieces (doubled_percent_partial). Files are modelled as returned texts; the directory and failing opens are not modelled."
  },
  {
   "property": "C48",
   "status": "partial",
   "theorems": [
    "option_values_typed_partial",
    "option_values_typed_refuted",
    "option_text_lost",
    "option_nonascii_undefined",
    "option_integer_range",
    "option_tail_dropped",
    "option_words_rejected"
   ],
   "note": "False for negative integers, words, file names and empty values (option_values_typed_refuted); every text of 7-bit characters without a full stop that is not a number is stored as the empty text (option_text_lost); with a byte from 128 to 254 after digits isdigit is undefined (option_nonascii_undefined); greater integers raise out_of_range (option_integer_range); what follows a decimal number is dropped (option_tail_dropped); file names and other words with a full stop raise invalid_argument (option_words_rejected). Proved for truth values, unsigned integers up to INT_MAX and decimal numbers with a full stop, also with exponents, from the command line and from a file. Doubles are rationals without rounding."
  },
  {
   "property": "C49",
   "status": "partial",
   "theorems": [
    "ini_file_partial",
    "ini_file_keys_partial",
    "ini_file_refuted"
   ],
   "note": "False: carriage returns hide the section, white space inside keys is removed, a value that cannot be converted aborts reading (ini_file_refuted). Proved for every file of 7-bit characters whose values in the section are truth values, unsigned integers or decimal numbers: last assignment wins, other keys unchanged; keys unchanged or present also for all other values when reading succeeds. Comments start with a semicolon."
  },
  {
   "property": "C50",
   "status": "partial",
   "theorems": [
    "map_operations_partial",
    "map_operations_guarded_partial",
    "map_operations_refuted"
   ],
   "note": "False: operator[] inserts (map_operations_refuted, options and cache). Proved: exact set of keys and values after every sequence of operations; the property holds if operator[] only reads keys that were set."
  },
  {
   "property": "C51",
   "status": "proved",
   "theorems": [
    "interpolation_history_free",
    "interpolation_same_as_fresh",
    "interpolation_exact",
    "interpolation_short_table",
    "interpolation_equal_points"
   ],
   "note": "Every strictly monotone table with at least two points, ascending or descending, every history of queries, also when table values change between queries as long as the length stays. Doubles are rationals without rounding, ints do not overflow. A table with fewer than two points is rejected (interpolation_short_table)."
  },
  {
   "property": "C52",
   "status": "partial",
   "theorems": [
    "send_receive_partial",
    "send_receive_sequence_partial",
    "broadcast_partial",
    "broadcast_lenient_partial",
    "messages_refuted",
    "messages_tags_refuted"
   ],
   "note": "False: empty vectors and matrices are undefined (front() of an empty vector), a path broadcast into a new node writes past the end of its string, the spacing of a default grid becomes NaN, and tags of matrices overlap (messages_refuted, messages_tags_refuted). Proved for everything else, every previous content of the receiver, and every sequence of messages on the same tag; the source has no point-to-point send of patches. Communicators and vector names are not part of the messages."
  },
  {
   "property": "C53",
   "status": "partial",
   "theorems": [
    "timer_total_partial",
    "stage_timer_partial",
    "stage_timer_refuted",
    "timer_unpaired_stop",
    "timer_restart_running",
    "stage_covers_body"
   ],
   "note": "False for stages: each run replaces the timer of the stage (stage_timer_refuted, two build stages); proved that the stage timer reports the last run. Timers themselves: the total of all intervals since the last restart, for every history in which starts and stops alternate and every clock; restarting a running timer does not begin a new interval (timer_restart_running)."
  },
  {
   "property": "C54",
   "status": "partial",
   "theorems": [
    "matrices_destroyed_once_partial",
    "owned_matrices_alive_partial",
    "matrices_destroyed_once_refuted"
   ],
   "note": "False: copies are destroyed twice; move assignment into an object with a matrix, the constructor with a new communicator, and create on an object with a matrix leak (matrices_destroyed_once_refuted). Proved for every program that avoids exactly these calls."
  },
  {
   "property": "C55",
   "status": "proved",
   "theorems": [
    "superposition"
   ],
   "note": "Every tree with leaf side >= 3 or siblings refined equally, every solver linear on each leaf."
  },
  {
   "property": "C56",
   "status": "proved",
   "theorems": [
    "solver_glued"
   ],
   "note": "C20 with the leaf sides for which the interpolation is defined. Exact rational arithmetic; serial traversal."
  },
  {
   "property": "C57",
   "status": "proved",
   "theorems": [
    "unique_by_signs",
    "solvable_by_signs"
   ],
   "note": "All coefficient functions with these signs, all rectangles and cell numbers; a concrete case shows that a sign condition is needed."
  },
  {
   "property": "C58",
   "status": "proved",
   "theorems": [
    "direct_solver_exact",
    "direct_solver_exact_fish"
   ],
   "note": "Every depth of uniform refinement, every right hand side function, boundary data and coefficients with the signs of C57; five-point stencil (m >= 2) and FISHPACK (m >= 3). Exact rational arithmetic."
  },
  {
   "property": "C59",
   "status": "proved",
   "theorems": [
    "parallel_solver_equals_serial"
   ],
   "note": "Construction, build, upwards and solve stage as one program per rank; every order of collectives; every tree of depth at most 29. The barriers between stages are left out of the model. The patch solver is assumed to make no collective calls: true for FISHPACK; for the five-point solver see C85."
  },
  {
   "property": "C60",
   "status": "proved",
   "theorems": [
    "linear_exact",
    "linear_exact_fish"
   ],
   "note": "Every quadtree shape on which the glued problem is well posed; five-point stencil (m >= 2; m >= 3 where siblings differ in resolution) and FISHPACK (m >= 3). Uniform trees are well posed at every depth (C58), refined ones not for every beta (C75); the adaptive example is Laplace on seven leaves. Exact rational arithmetic."
  },
  {
   "property": "C61",
   "status": "proved",
   "theorems": [
    "flux_balance",
    "flux_balance_fish"
   ],
   "note": "As C60, all boundary data and loads, constant beta; for variable beta see C76."
  },
  {
   "property": "C62",
   "status": "proved",
   "theorems": [
    "vector_inf_norm",
    "matrix_inf_norm",
    "vector_two_norm",
    "inf_norm_zero"
   ],
   "note": "Entries are rationals; the square root itself is not modelled (the sum under the root is)."
  },
  {
   "property": "C63",
   "status": "proved",
   "theorems": [
    "comparison_holds",
    "bounds_hold",
    "direct_solver_monotone",
    "direct_solver_bounded"
   ],
   "note": "On one rectangle of any size and on uniform trees of any depth (five-point solver, m >= 2). Exact rational arithmetic."
  },
  {
   "property": "C64",
   "status": "proved",
   "theorems": [
    "error_by_residual",
    "direct_solver_error",
    "direct_solver_error_fish",
    "error_vanishes"
   ],
   "note": "Uniform trees of any depth, five-point solver (m >= 2) and FISHPACK (m >= 3), beta = 1. The function takes rational arguments and values; its smoothness is stated through second differences, which Taylor expansion gives for C4 functions. Exact rational arithmetic."
  },
  {
   "property": "C65",
   "status": "proved",
   "theorems": [
    "mixed_exact",
    "mixed_exact_fish",
    "program_error"
   ],
   "note": "Uniform trees of any depth; five-point solver (m >= 2) and FISHPACK (m >= 3). The pure Neumann problem with lambda = 0 is excluded because constants solve it (neumann_kernel). Exact rational arithmetic."
  },
  {
   "property": "C66",
   "status": "partial",
   "theorems": [
    "dot_product",
    "identity_matrix",
    "diagonal_matrix",
    "vector_index_set_partial",
    "vector_index_set_refuted"
   ],
   "note": "False: index = size is not rejected (vector_index_set_refuted). Everything else proved, for index sets not longer than the vector."
  },
  {
   "property": "C67",
   "status": "proved",
   "theorems": [
    "green_identity",
    "root_operator",
    "root_operator_fish"
   ],
   "note": "Green identity on any grid with nonzero alpha. Root operator on uniform trees of any depth; five-point solver (m >= 2) with variable coefficients, FISHPACK (m >= 3). Exact rational arithmetic."
  },
  {
   "property": "C68",
   "status": "partial",
   "theorems": [
    "shortened_operator_partial",
    "shortened_operator_fish_partial",
    "shortened_operator_refuted"
   ],
   "note": "False for variable coefficients without symmetry and for rectangles that are not squares (shortened_operator_refuted). Proved for square patches whose coefficients are unchanged by the reflections of the square, which includes all constants, and for FISHPACK on any square."
  },
  {
   "property": "C69",
   "status": "partial",
   "theorems": [
    "thermal_states_partial",
    "thermal_final_partial",
    "thermal_bounded",
    "thermal_initial_refuted",
    "thermal_south_refuted",
    "thermal_refined_partial"
   ],
   "note": "Two parts are false: iteration 0 has already taken a step, without source (thermal_initial_refuted), and dudnSouth is used as the derivative in the direction of +y (thermal_south_refuted). The rest is proved on uniform trees for every iteration, the last being at the end of the interval (thermal_final_partial). On meshes refined in places the states are proved to be the steps of the glued heat equation, and unique, when the merges and the boundary system are nonsingular (thermal_refined_partial); the bounds are proved on uniform trees only. Exact rational arithmetic."
  },
  {
   "property": "C70",
   "status": "partial",
   "theorems": [
    "report_meaning",
    "report_order",
    "program_report",
    "program_report_fish",
    "linear_report",
    "rank_reports",
    "rank_report_refuted",
    "patch_error"
   ],
   "note": "False on several ranks: each prints its own share (rank_report_refuted; rank_reports says how the shares relate to the whole). The rest is proved; the root of the mean square is stated through squares, since square roots are not rational. Exact rational arithmetic."
  },
  {
   "property": "C71",
   "status": "proved",
   "theorems": [
    "double_leaves_tile",
    "double_parent",
    "double_leaves_accurate",
    "double_leaves_exact",
    "double_cells",
    "double_thin_zero_width",
    "double_overflow_infinite"
   ],
   "note": "binary64 of the Flocq library, round to nearest even; fused operations and extended precision left out. The conditions on the root are needed: double_thin_zero_width, double_overflow_infinite. These theorems use the axioms of the real numbers of the standard library (DESIGN.md)."
  },
  {
   "property": "C72",
   "status": "partial",
   "theorems": [
    "double_vector_norm",
    "double_matrix_norm",
    "double_norm_zero",
    "double_norm_skips_nan",
    "double_norm_hides_nan_refuted",
    "double_l2_shows_nan"
   ],
   "note": "False for data that are not numbers: fmax ignores them, so the distance of a vector of NaN is reported as zero (double_norm_hides_nan_refuted). The rest is proved in binary64 of the Flocq library; uses the axioms of the real numbers (DESIGN.md)."
  },
  {
   "property": "C73",
   "status": "partial",
   "theorems": [
    "scalar_update",
    "own_entry_update",
    "own_entry_refuted",
    "self_update",
    "copies",
    "copy_name_refuted",
    "matrix_from_data",
    "matrix_from_refuted"
   ],
   "note": "Three parts are false: v /= v[k] divides the entries behind k by the new value (own_entry_refuted, own_entry_update says exactly what happens), copies lose the name (copy_name_refuted), the length of the data of a matrix is not checked (matrix_from_refuted). The rest is proved."
  },
  {
   "property": "C74",
   "status": "partial",
   "theorems": [
    "construction_allocates",
    "traversal_resources",
    "serial_traversal_resources",
    "traversal_release_refuted",
    "nothing_released",
    "remesh_resources",
    "destructor_release_refuted",
    "null_communicator",
    "null_communicator_refuted"
   ],
   "note": "False: the destructor releases nothing (destructor_release_refuted), merge and split leave nodes behind on every rank that is not alone (traversal_release_refuted), and with leaves on two ranks every rank names a null communicator (null_communicator_refuted). What is allocated and kept is counted exactly for every tree and program."
  },
  {
   "property": "C75",
   "status": "partial",
   "theorems": [
    "refined_mesh_posed_refuted",
    "uniform_mesh_posed_partial"
   ],
   "note": "False where the resolution changes: on the unit square with one quarter divided once more there is a positive beta for which the interface matrix is singular, whatever LU is used (refined_mesh_posed_refuted, exact coefficients and a nonzero solution without data are given). Proved on uniform meshes of every depth (uniform_mesh_posed_partial). Open: constant beta on refined meshes."
  },
  {
   "property": "C76",
   "status": "partial",
   "theorems": [
    "uniform_balance_partial",
    "refined_balance_refuted"
   ],
   "note": "False where the resolution changes: the averages are of difference quotients, without beta (refined_balance_refuted, beta = 1 + y^2). Proved on uniform meshes of every depth for every beta (uniform_balance_partial) and on all meshes for constant beta (C61)."
  },
  {
   "property": "C77",
   "status": "proved",
   "theorems": [
    "memory_exact",
    "memory_bound",
    "memory_uniform"
   ],
   "note": "For any leaf solver that returns one value per cell, on every well-posed quadtree, after any positive number of solves; closed form with the finite volume solver on uniform meshes. The patches must start empty, as the node factory creates them. The count is of what dataSize adds up: element counts of the matrices and vectors, not the allocator; PETSc objects that are never destroyed (C86) are not counted."
  },
  {
   "property": "C78",
   "status": "partial",
   "theorems": [
    "app_in_main",
    "failed_start_again",
    "failed_start_refuted",
    "no_app",
    "mpi_once",
    "app_is_last",
    "app_restart_refuted",
    "caller_owns_mpi_refuted",
    "two_apps_refuted",
    "early_options_refuted",
    "default_app_refuted"
   ],
   "note": "Proved for one object from the beginning to the end of main and for programs without one (app_in_main, no_app, mpi_once). False otherwise: after the destructor getInstance is a dangling pointer and no further object can be made (app_restart_refuted, app_is_last for all programs), the destructor finalises the MPI of the caller (caller_owns_mpi_refuted), a second object takes over (two_apps_refuted), options set before the object is made are lost (early_options_refuted), a constructor that throws leaves MPI running (failed_start_refuted; a second try works, failed_start_again), a default object cannot be destroyed before MPI_Init (default_app_refuted)."
  },
  {
   "property": "C79",
   "status": "partial",
   "theorems": [
    "two_cells_lose_data",
    "two_cell_leaves_refuted",
    "two_cells_equal_levels_partial"
   ],
   "note": "False where the resolution changes: the last value of each side becomes 0 for all data (two_cells_lose_data), and boundary data 1 do not give the solution 1 (two_cell_leaves_refuted). Proved where siblings are refined equally; for three and more cells see C60."
  },
  {
   "property": "C80",
   "status": "partial",
   "theorems": [
    "allgatherv_places",
    "allgatherv_returns_partial",
    "allgather_order",
    "allgather_needs_equal_counts",
    "counts_then_data_partial",
    "empty_contribution_undefined",
    "any_contributions_refuted",
    "shipped_gather_test",
    "scalar_gather_one_rank",
    "scalar_gather_refuted",
    "allreduce_entries"
   ],
   "note": "What a call does is characterised completely (allgatherv_places, allgatherv_returns_partial, allgather_order, allgather_needs_equal_counts, allreduce_entries). False for empty contributions, since getAddress and getType look at the first element (empty_contribution_undefined, any_contributions_refuted; the shipped test has one on every number of ranks, shipped_gather_test), and for scalars on more than one rank (scalar_gather_one_rank, scalar_gather_refuted). Proved for nonempty contributions, and for all where the address of an empty vector is harmless (counts_then_data_partial)."
  },
  {
   "property": "C81",
   "status": "partial",
   "theorems": [
    "rows_divided",
    "vector_after_assembly",
    "matrix_after_assembly",
    "serial_vector_distributed",
    "serial_matrix_distributed",
    "different_serials_refuted",
    "short_values_undefined",
    "vectors_destroyed_once_partial",
    "vectors_destroyed_once_refuted",
    "patch_vectors_harmless"
   ],
   "note": "Contents: proved for all agreeing writes and message orders (vector_after_assembly, matrix_after_assembly, serial_vector_distributed, serial_matrix_distributed, rows_divided). False if the ranks pass different serial vectors (different_serials_refuted). Release: false for copies, assignments and a second create (vectors_destroyed_once_refuted); proved for programs without them (vectors_destroyed_once_partial) and for the unused vectors in patches (patch_vectors_harmless). PETSc is modelled as documented in DVecModel.v; only insertion."
  },
  {
   "property": "C82",
   "status": "proved",
   "theorems": [
    "double_sum_error",
    "double_sum_finite",
    "double_sum_exact",
    "double_sum_shows_nonfinite",
    "double_product_error",
    "double_matrix_product_error",
    "double_dot_error",
    "double_interior_error"
   ],
   "note": "The sum is a relation that contains every order and fusing, so nothing is assumed about the BLAS library beyond rounding to nearest of its additions, products and fused operations. Uses the axioms of the real numbers of the standard library. DGESV is not covered."
  },
  {
   "property": "C83",
   "status": "partial",
   "theorems": [
    "double_refine_error",
    "double_refine_exact",
    "double_passes_error",
    "double_constant_inside",
    "double_constant_kept_partial",
    "double_constant_kept_refuted",
    "double_average_error",
    "double_average_constant"
   ],
   "note": "Error bounds, exactness for at most 46 binary digits, averaging of constants, the error of all passes together (double_passes_error), and all passes for constants of at most 46 digits proved (double_constant_kept_partial). False for other constants: 0.3 changes at the ends of the sides (double_constant_kept_refuted); between the ends every constant is kept (double_constant_inside). At least three coarse cells per side; for two see C79. Uses the axioms of the real numbers."
  },
  {
   "property": "C84",
   "status": "proved",
   "theorems": [
    "second_differences",
    "smooth_solution_error",
    "smooth_solution_error_fish",
    "smooth_error_vanishes",
    "sine_report_fish",
    "sine_report",
    "sine_patch_error"
   ],
   "note": "The function is smooth on the rectangle and half a cell beyond it (for the sines everywhere). Values, data and arithmetic of the program are exact rationals; the evaluation of sin is any function within e of it. Uniform meshes. Uses the axioms of the real numbers."
  },
  {
   "property": "C85",
   "status": "partial",
   "theorems": [
    "five_point_needs_equal_leaves",
    "five_point_three_ranks",
    "five_point_parallel_completes_refuted",
    "five_point_equal_leaves_refuted",
    "five_point_one_rank",
    "five_point_solver_one_rank",
    "five_point_aligned_completes",
    "five_point_solver_aligned"
   ],
   "note": "False: four leaves, three on rank 0 and one on rank 1, hang whatever the number of calls per leaf (five_point_parallel_completes_refuted), and so do ten leaves, five on each rank (five_point_equal_leaves_refuted), while both complete without the calls. Proved: completion needs the same number of leaves on every rank (five_point_needs_equal_leaves), so with three, six, ... ranks it never happens (five_point_three_ranks); on one rank the calls do not matter; they do not matter either when leaves are equally distributed and a quadrant shared by ranks contains all leaves of these ranks (five_point_aligned_completes, five_point_solver_aligned). Assumes that ISCreateGeneral is collective over its communicator, as PETSc documents."
  },
  {
   "property": "C86",
   "status": "partial",
   "theorems": [
    "solve_leaks_index_sets",
    "solve_releases_objects_refuted"
   ],
   "note": "False: two index sets per solve are never destroyed (solve_leaks_index_sets, solve_releases_objects_refuted); matrix and vectors are."
  },
  {
   "property": "C87",
   "status": "proved",
   "theorems": [
    "command_line_values",
    "command_line_last",
    "command_line_ends"
   ],
   "note": "Every list of arguments. The value given by an argument is the one it gives when it is the only argument (command_line_last); which one that is, is shown for truth values, unsigned integers and decimal numbers (command_line_values) and under C48. Parsing ends normally exactly if every single argument can be parsed (command_line_ends)."
  },
  {
   "property": "C88",
   "status": "partial",
   "theorems": [
    "flag_read",
    "flag_read_refuted"
   ],
   "note": "Proved: the read gives a truth value exactly if the last argument mentioning the key is --key=true or --key=false (flag_read, for every command line). False otherwise: a switch without value, or not given, throws bad_variant_access (flag_read_refuted)."
  },
  {
   "property": "C89",
   "status": "partial",
   "theorems": [
    "wrong_boundary_rejected",
    "short_boundary_leaf",
    "long_boundary_ignored",
    "short_load_five_point",
    "short_load_fishpack",
    "long_load_ignored",
    "upwards_loads_complete",
    "short_load_stage_undefined",
    "wrong_lengths_reported_refuted"
   ],
   "note": "False on a single leaf: surplus boundary data are ignored, and a load one entry short is undefined behaviour (wrong_lengths_reported_refuted). Boundary data: every wrong length is rejected on every mesh of more than one leaf (wrong_boundary_rejected), on a leaf only short data are. Loads: surplus entries are ignored (long_load_ignored); short ones are undefined behaviour with FISHPACK, and with the five-point solver exactly if the length is a multiple of n or larger than (n-1)n, otherwise std::out_of_range. A stage that ends normally had complete loads (upwards_loads_complete)."
  },
  {
   "property": "C90",
   "status": "partial",
   "theorems": [
    "solve_before_build",
    "solve_fn_before_build",
    "upwards_before_build",
    "solve_before_upwards",
    "solve_after_homogeneous_upwards",
    "single_leaf_order_undefined",
    "stage_order_reported_refuted"
   ],
   "note": "False on a single leaf: build and then solve without upwards stage is undefined behaviour with both solvers (single_leaf_order_undefined, stage_order_reported_refuted). Proved on every mesh of more than one leaf, and for boundary conditions given as functions on every mesh. The upwards stage before the build ends in LAPACK rejecting dimension 0; an argument that BLAS or LAPACK rejects counts as reported (XERBLA stops the program)."
  },
  {
   "property": "C91",
   "status": "proved",
   "theorems": [
    "moved_domain",
    "moved_well_posed",
    "moved_domain_fish"
   ],
   "note": "Quadtree of any shape on which the glued problem is well posed (which is then so on the moved domain, moved_well_posed). Five-point solver with variable coefficients, and FISHPACK with lambda and loads divided by s squared."
  },
  {
   "property": "C92",
   "status": "proved",
   "theorems": [
    "mirrored_domain",
    "mirrored_well_posed",
    "mirrored_domain_fish",
    "mirrored_load",
    "symmetric_answer"
   ],
   "note": "Quadtree of any shape on which the glued problem is well posed (which is then so on the mirrored domain, mirrored_well_posed). Five-point solver with variable coefficients, and FISHPACK. The mirror image in y is the mirror image in x between two exchanges of x and y."
  },
  {
   "property": "C93",
   "status": "proved",
   "theorems": [
    "thermal_ranks_states",
    "thermal_ranks_refined"
   ],
   "note": "From the construction of the quadtree on; barriers, options and output left out. The states are stated leaf by leaf on the map of the rank that owns the leaf. On other partitions the five-point solver need not end at all, see C85. Exact rational arithmetic."
  }
 ]
}