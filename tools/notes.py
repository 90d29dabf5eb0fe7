NOTES = {
'C01': ('proved', 'Any element type, any shape including empty.'),
'C02': ('partial', 'False as stated: position + size can wrap around 2^64 and the block is then accepted silently (block_write_wraps_refuted). Proved for all positions where the sum does not wrap.'),
'C03': ('partial', 'False as stated: index = size is accepted (wrong value or read past the storage), and in-range index sets longer than the matrix are rejected (index_sets_refuted). Proved for index sets not longer than the matrix; indices that are negative or larger than the size are rejected.'),
'C04': ('proved', 'Any element type, any block layout, any pair of permutations.'),
'C05': ('partial', 'False as stated: start + length can wrap around 2^64 (segments_wrap_refuted). Proved for all starts and lengths whose sum does not wrap.'),
'C06': ('proved', 'Equality of outcomes, also when the product raises an exception for an empty matrix.'),
'C07': ('partial', 'False for empty inner dimension: BLAS rejects leading dimension 0 (empty_products_refuted). Proved for all nonempty shapes; non-conforming shapes raise invalid_argument.'),
'C08': ('partial', 'False in the singular case: INFO is only logged (solve_singular_refuted). Proved for every nonsingular system and any LAPACK meeting the dgesv contract; the contract is shown satisfiable by Gaussian elimination.'),
'C09': ('partial', 'False at index = size (access_refuted). Proved for all other indices.'),
'C10': ('partial', 'False: getRange returns the indices instead of the entries (get_range_refuted). get_range_partial characterises exactly when the result is right.'),
'C11': ('partial', 'getCol is wrong for every non-square matrix (get_col_refuted). getRow, setRow, setColumn proved for all shapes, getCol for square ones.'),
'C12': ('partial', 'Matrix *= scalar adds instead of multiplying (matrix_times_assign_refuted). All other operators proved; division in exact arithmetic by nonzero divisors.'),
'C13': ('partial', 'False for 2 and 4 fine cells (coarse_to_fine_refuted). Proved for every even number of fine cells >= 6.'),
'C14': ('partial', 'Averaging and conservation proved for every n >= 1; reproduction after coarse-to-fine proved for n >= 3 and false for n = 2 (fine_after_coarse_refuted).'),
'C15': ('proved', 'Entries for any list of blocks; product for any list with at least one column in total.'),
'C16': ('proved', 'Any four child operators, equal or different resolutions (the coarsest sets the interface resolution, at least 3 when interpolation is needed). Also uniqueness of the interface values. Holds for every dense solver meeting the LAPACK contract.'),
'C17': ('proved', 'Same generality as C16.'),
'C18': ('proved', 'For the operators left by the merge and arbitrary load fluxes.'),
'C19': ('proved', 'Spelled out piece by piece; with and without homogeneous-rhs; includes a parent that was itself coarsened.'),
'C20': ('partial', 'False for one cell per leaf side on adaptive trees, where the build raises (solver_small_leaves_refuted). Proved for side >= 3 on every tree and for every side when siblings are refined equally.'),
'C56': ('proved', 'C20 with the leaf sides for which the interpolation is defined. Exact rational arithmetic; serial traversal.'),
'C21': ('proved', 'Any tree, any solver, any preceding calls under any setting of homogeneous-rhs; failures agree too.'),
'C22': ('partial', 'False on adaptive meshes: the coarsening counters are not reset and a second build reads out of bounds (rebuild_refuted); false with cache-operators, which keeps the first operator (rebuild_cached_refuted). Proved for meshes whose siblings are refined equally, without the cache.'),
'C23': ('partial', 'False when the leaf operator varies in space: all leaves get the first one (cache_refuted). False for Laplace on a refined mesh: the run with the cache does not return u = x (cache_refined_refuted), since the operator of a leaf s times as large is 1/s times the operator (leaf_operator_scales). Proved for solvers with one operator for all leaves, cache empty or holding it (cache_partial), and so for constant coefficients and leaves of equal size (cache_equal_leaves, cache_equal_leaves_fish).'),
'C24': ('proved', 'All trees, n >= 3, all settings of both options; every stage returns.'),
'C25': ('proved', 'Any root operator; and for the whole solver on every tree, with the flux of the glued solution. Dirichlet case for any root.'),
'C26': ('partial', 'False for solveStage with boundary functions: on a refined mesh it throws because the root has no flux vector (homogeneous_refuted). Proved for solveStage with boundary data, every mesh, for a solver whose flux vanishes without load.'),
'C55': ('proved', 'Every tree with leaf side >= 3 or siblings refined equally, every solver linear on each leaf.'),
'C27': ('proved', 'Square patches with n >= 2 cells per side, all coefficient functions; the returned vector solves the discrete problem whenever that has at most one solution.'),
'C28': ('proved', 'Five-point stencil and FISHPACK, whenever the cell problem is uniquely solvable.'),
'C29': ('proved', 'Direction of all four one-sided differences, agreement across shared faces in both directions, exactness for linear solutions with variable coefficients.'),
'C30': ('partial', 'False for other coefficients: the FISHPACK branch ignores alpha and beta and takes lambda at the origin (solvers_agree_refuted, solvers_agree_lambda_refuted, for every routine meeting the FISHPACK contract). Proved for alpha = beta = 1 and constant lambda, n >= 3.'),
'C31': ('partial', 'False: every patch with different cell numbers raises out_of_range or reads past the end of the boundary data (rectangular_refuted, rectangular_rejected). Proved for equal cell numbers and any rectangle.'),
'C57': ('proved', 'All coefficient functions with these signs, all rectangles and cell numbers; a concrete case shows that a sign condition is needed.'),
'C58': ('proved', 'Every depth of uniform refinement, every right hand side function, boundary data and coefficients with the signs of C57; five-point stencil (m >= 2) and FISHPACK (m >= 3). Exact rational arithmetic.'),
'C32': ('proved', 'Every tree of depth at most 29 (the p4est limit), every contiguous partition, every rectangle; exact rational arithmetic. Stated on the nodes that the constructor leaves in the maps of all ranks.'),
'C33': ('proved', 'Every node. Exact rational arithmetic.'),
'C34': ('proved', 'Every valid quadrant up to level 29 and every node made by the constructor, for every factory that keeps paths.'),
'C35': ('partial', 'A rank without leaves between ranks with leaves owns nodes but its traversals visit nothing (traversal_visits_every_owned_node_refuted). Proved for every rank with respect to the quadrants that contain one of its leaves, which are all its nodes if it owns a leaf. merge and split: order proved for a rank owning the whole tree with any callback, and for every rank with leaves of a parallel run without gaps with callbacks that compute from path and data.'),
'C36': ('proved', 'Serial run (one rank owns the tree), every tree and all callbacks, including callbacks with state, callbacks that stop the descent or fail. Also instantiated with the three stages of the direct solver.'),
'C39': ('proved', 'Every tree of depth at most 29, every contiguous partition including empty ranks, every factory that keeps paths, levels and ranges.'),
'C40': ('partial', 'False: only traversePreOrder with a node callback sets the user pointer (three refutations: after construction, with two quadtrees on one forest, after move assignment). Proved: works once that traversal has run on a quadtree alone on its forest, in particular for the quadtree of a mesh after refineByFunction.'),
'C37': ('partial', 'False: a rank without leaves between ranks with leaves makes merge hang (parallel_merge_completes_refuted); a rank without leaves dereferences a missing root in the solve stage (solve_on_leafless_rank_refuted); with cache-operators ranks keep different operators (parallel_cached_build_refuted). Proved, for every order of collectives: any sequence of merges, splits and root accesses on every tree and every contiguous partition without gaps, for callbacks that compute from path and data and whose serial run succeeds; construction for every contiguous partition. That broadcasting is undefined for empty data and that a null communicator is named is left to C52 and C74.'),
'C38': ('proved', 'Every family of every contiguous distribution, gaps allowed.'),
'C59': ('proved', 'Construction, build, upwards and solve stage as one program per rank; every order of collectives; every tree of depth at most 29. The barriers between stages are left out of the model. The patch solver is assumed to make no collective calls: true for FISHPACK; for the five-point solver see C85.'),
'C41': ('proved', 'Every predicate, domain, cell count, levels (min_level at most 29). p4est_refine is a relation shown to have exactly one result; p4est_balance enters as: only refines, not deeper than the deepest quadrant present; p4est_partition as: changes owners only. p4est never refines beyond level 29, whatever max_level is.'),
'C42': ('partial', 'False: offsets and types have four entries per cell (exported_arrays_describe_cells_refuted; exported_offsets_wrong: on every rank with a cell). Proved: numbers of cells and points, coordinates, connectivity, counter-clockwise corners, and the first ncells offsets and types, for every tree, rank and patch size. int counters do not overflow.'),
'C43': ('partial', 'False: arrays are appended to (refine_again_replaces_refuted). Proved: exact content after a second refinement; it describes the new mesh exactly if there was no cell before on the rank.'),
'C44': ('proved', 'Every tree, contiguous partition, rank, function, and every later content of the leaves with unchanged grids and one value per cell; for a mesh object refined once (see C43).'),
'C45': ('partial', 'False: nothing is escaped (written_xml_reads_back_refuted: ill-formed text, and a value that is read as another attribute). Proved for every tree whose names, values and data need no escapes: the text has exactly one reading in the grammar of XmlSpec.v, with the same names, attributes, children, and data up to surrounding white space. Grammar: ASCII part of XML 1.0 without references, comments, CDATA, processing instructions, empty-element tags.'),
'C46': ('partial', 'False: after one call the writer holds a pointer to a destroyed node; every later call is undefined (later_output_undefined for all three writers, output_twice_refuted). Arrays without entries make the first call undefined (output_without_cells_refuted). Proved: the first call writes a complete file for every mesh and data with entries; Mesh::toVTK, which makes a new writer, may be called any number of times. A mesh given again: the unstructured writer writes the last one (unstructured_last_mesh_partial), the rectilinear one appends coordinates (rectilinear_second_mesh_partial).'),
'C47': ('partial', 'False for base names with a percent sign (percent_in_name_refuted) and for long ones (long_name_refuted). Proved for every number of ranks and every other base name, mesh and data with entries; a name in which every percent sign is written twice names the right pieces (doubled_percent_partial). Files are modelled as returned texts; the directory and failing opens are not modelled.'),
'C48': ('partial', 'False for negative integers, words, file names and empty values (option_values_typed_refuted); every text of 7-bit characters without a full stop that is not a number is stored as the empty text (option_text_lost); with a byte from 128 to 254 after digits isdigit is undefined (option_nonascii_undefined); greater integers raise out_of_range (option_integer_range); what follows a decimal number is dropped (option_tail_dropped); file names and other words with a full stop raise invalid_argument (option_words_rejected). Proved for truth values, unsigned integers up to INT_MAX and decimal numbers with a full stop, also with exponents, from the command line and from a file. Doubles are rationals without rounding.'),
'C49': ('partial', 'False: carriage returns hide the section, white space inside keys is removed, a value that cannot be converted aborts reading (ini_file_refuted). Proved for every file of 7-bit characters whose values in the section are truth values, unsigned integers or decimal numbers: last assignment wins, other keys unchanged; keys unchanged or present also for all other values when reading succeeds. Comments start with a semicolon.'),
'C50': ('partial', 'False: operator[] inserts (map_operations_refuted, options and cache). Proved: exact set of keys and values after every sequence of operations; the property holds if operator[] only reads keys that were set.'),
'C51': ('proved', 'Every strictly monotone table with at least two points, ascending or descending, every history of queries, also when table values change between queries as long as the length stays. Doubles are rationals without rounding, ints do not overflow. A table with fewer than two points is rejected (interpolation_short_table).'),
'C52': ('partial', 'False: empty vectors and matrices are undefined (front() of an empty vector), a path broadcast into a new node writes past the end of its string, the spacing of a default grid becomes NaN, and tags of matrices overlap (messages_refuted, messages_tags_refuted). Proved for everything else, every previous content of the receiver, and every sequence of messages on the same tag; the source has no point-to-point send of patches. Communicators and vector names are not part of the messages.'),
'C53': ('partial', 'False for stages: each run replaces the timer of the stage (stage_timer_refuted, two build stages); proved that the stage timer reports the last run. Timers themselves: the total of all intervals since the last restart, for every history in which starts and stops alternate and every clock; restarting a running timer does not begin a new interval (timer_restart_running).'),
'C54': ('partial', 'False: copies are destroyed twice; move assignment into an object with a matrix, the constructor with a new communicator, and create on an object with a matrix leak (matrices_destroyed_once_refuted). Proved for every program that avoids exactly these calls.'),
'C60': ('proved', 'Every quadtree shape on which the glued problem is well posed; five-point stencil (m >= 2; m >= 3 where siblings differ in resolution) and FISHPACK (m >= 3). Uniform trees are well posed at every depth (C58), refined ones not for every beta (C75); the adaptive example is Laplace on seven leaves. Exact rational arithmetic.'),
'C61': ('proved', 'As C60, all boundary data and loads, constant beta; for variable beta see C76.'),
'C62': ('proved', 'Entries are rationals; the square root itself is not modelled (the sum under the root is).'),
'C63': ('proved', 'On one rectangle of any size and on uniform trees of any depth (five-point solver, m >= 2). Exact rational arithmetic.'),
'C64': ('proved', 'Uniform trees of any depth, five-point solver (m >= 2) and FISHPACK (m >= 3), beta = 1. The function takes rational arguments and values; its smoothness is stated through second differences, which Taylor expansion gives for C4 functions. Exact rational arithmetic.'),
'C65': ('proved', 'Uniform trees of any depth; five-point solver (m >= 2) and FISHPACK (m >= 3). The pure Neumann problem with lambda = 0 is excluded because constants solve it (neumann_kernel). Exact rational arithmetic.'),
'C66': ('partial', 'False: index = size is not rejected (vector_index_set_refuted). Everything else proved, for index sets not longer than the vector.'),
'C67': ('proved', 'Green identity on any grid with nonzero alpha. Root operator on uniform trees of any depth; five-point solver (m >= 2) with variable coefficients, FISHPACK (m >= 3). Exact rational arithmetic.'),
'C68': ('partial', 'False for variable coefficients without symmetry and for rectangles that are not squares (shortened_operator_refuted). Proved for square patches whose coefficients are unchanged by the reflections of the square, which includes all constants, and for FISHPACK on any square.'),
'C69': ('partial', 'Two parts are false: iteration 0 has already taken a step, without source (thermal_initial_refuted), and dudnSouth is used as the derivative in the direction of +y (thermal_south_refuted). The rest is proved on uniform trees for every iteration, the last being at the end of the interval (thermal_final_partial). On meshes refined in places the states are proved to be the steps of the glued heat equation, and unique, when the merges and the boundary system are nonsingular (thermal_refined_partial); the bounds are proved on uniform trees only. Exact rational arithmetic.'),
'C70': ('partial', 'False on several ranks: each prints its own share (rank_report_refuted; rank_reports says how the shares relate to the whole). The rest is proved; the root of the mean square is stated through squares, since square roots are not rational. Exact rational arithmetic.'),
'C71': ('proved', 'binary64 of the Flocq library, round to nearest even; fused operations and extended precision left out. The conditions on the root are needed: double_thin_zero_width, double_overflow_infinite. These theorems use the axioms of the real numbers of the standard library (DESIGN.md).'),
'C72': ('partial', 'False for data that are not numbers: fmax ignores them, so the distance of a vector of NaN is reported as zero (double_norm_hides_nan_refuted). The rest is proved in binary64 of the Flocq library; uses the axioms of the real numbers (DESIGN.md).'),
'C73': ('partial', 'Three parts are false: v /= v[k] divides the entries behind k by the new value (own_entry_refuted, own_entry_update says exactly what happens), copies lose the name (copy_name_refuted), the length of the data of a matrix is not checked (matrix_from_refuted). The rest is proved.'),
'C74': ('partial', 'False: the destructor releases nothing (destructor_release_refuted), merge and split leave nodes behind on every rank that is not alone (traversal_release_refuted), and with leaves on two ranks every rank names a null communicator (null_communicator_refuted). What is allocated and kept is counted exactly for every tree and program.'),
'C75': ('partial', 'False where the resolution changes: on the unit square with one quarter divided once more there is a positive beta for which the interface matrix is singular, whatever LU is used (refined_mesh_posed_refuted, exact coefficients and a nonzero solution without data are given). Proved on uniform meshes of every depth (uniform_mesh_posed_partial). Open: constant beta on refined meshes.'),
'C76': ('partial', 'False where the resolution changes: the averages are of difference quotients, without beta (refined_balance_refuted, beta = 1 + y^2). Proved on uniform meshes of every depth for every beta (uniform_balance_partial) and on all meshes for constant beta (C61).'),
'C77': ('proved', 'For any leaf solver that returns one value per cell, on every well-posed quadtree, after any positive number of solves; closed form with the finite volume solver on uniform meshes. The patches must start empty, as the node factory creates them. The count is of what dataSize adds up: element counts of the matrices and vectors, not the allocator; PETSc objects that are never destroyed (C86) are not counted.'),
'C78': ('partial', 'Proved for one object from the beginning to the end of main and for programs without one (app_in_main, no_app, mpi_once). False otherwise: after the destructor getInstance is a dangling pointer and no further object can be made (app_restart_refuted, app_is_last for all programs), the destructor finalises the MPI of the caller (caller_owns_mpi_refuted), a second object takes over (two_apps_refuted), options set before the object is made are lost (early_options_refuted), a constructor that throws leaves MPI running (failed_start_refuted; a second try works, failed_start_again), a default object cannot be destroyed before MPI_Init (default_app_refuted).'),
'C79': ('partial', 'False where the resolution changes: the last value of each side becomes 0 for all data (two_cells_lose_data), and boundary data 1 do not give the solution 1 (two_cell_leaves_refuted). Proved where siblings are refined equally; for three and more cells see C60.'),
'C80': ('partial', 'What a call does is characterised completely (allgatherv_places, allgatherv_returns_partial, allgather_order, allgather_needs_equal_counts, allreduce_entries). False for empty contributions, since getAddress and getType look at the first element (empty_contribution_undefined, any_contributions_refuted; the shipped test has one on every number of ranks, shipped_gather_test), and for scalars on more than one rank (scalar_gather_one_rank, scalar_gather_refuted). Proved for nonempty contributions, and for all where the address of an empty vector is harmless (counts_then_data_partial).'),
'C81': ('partial', 'Contents: proved for all agreeing writes and message orders (vector_after_assembly, matrix_after_assembly, serial_vector_distributed, serial_matrix_distributed, rows_divided). False if the ranks pass different serial vectors (different_serials_refuted). Release: false for copies, assignments and a second create (vectors_destroyed_once_refuted); proved for programs without them (vectors_destroyed_once_partial) and for the unused vectors in patches (patch_vectors_harmless). PETSc is modelled as documented in DVecModel.v; only insertion.'),
'C82': ('proved', 'The sum is a relation that contains every order and fusing, so nothing is assumed about the BLAS library beyond rounding to nearest of its additions, products and fused operations. Uses the axioms of the real numbers of the standard library. DGESV is not covered.'),
'C83': ('partial', 'Error bounds, exactness for at most 46 binary digits, averaging of constants, the error of all passes together (double_passes_error), and all passes for constants of at most 46 digits proved (double_constant_kept_partial). False for other constants: 0.3 changes at the ends of the sides (double_constant_kept_refuted); between the ends every constant is kept (double_constant_inside). At least three coarse cells per side; for two see C79. Uses the axioms of the real numbers.'),
'C84': ('proved', 'The function is smooth on the rectangle and half a cell beyond it (for the sines everywhere). Values, data and arithmetic of the program are exact rationals; the evaluation of sin is any function within e of it. Uniform meshes. Uses the axioms of the real numbers.'),
'C85': ('partial', 'False: four leaves, three on rank 0 and one on rank 1, hang whatever the number of calls per leaf (five_point_parallel_completes_refuted), and so do ten leaves, five on each rank (five_point_equal_leaves_refuted), while both complete without the calls. Proved: completion needs the same number of leaves on every rank (five_point_needs_equal_leaves), so with three, six, ... ranks it never happens (five_point_three_ranks); on one rank the calls do not matter; they do not matter either when leaves are equally distributed and a quadrant shared by ranks contains all leaves of these ranks (five_point_aligned_completes, five_point_solver_aligned). Assumes that ISCreateGeneral is collective over its communicator, as PETSc documents.'),
'C86': ('partial', 'False: two index sets per solve are never destroyed (solve_leaks_index_sets, solve_releases_objects_refuted); matrix and vectors are.'),
'C87': ('proved', 'Every list of arguments. The value given by an argument is the one it gives when it is the only argument (command_line_last); which one that is, is shown for truth values, unsigned integers and decimal numbers (command_line_values) and under C48. Parsing ends normally exactly if every single argument can be parsed (command_line_ends).'),
'C88': ('partial', 'Proved: the read gives a truth value exactly if the last argument mentioning the key is --key=true or --key=false (flag_read, for every command line). False otherwise: a switch without value, or not given, throws bad_variant_access (flag_read_refuted).'),
'C89': ('partial', 'False on a single leaf: surplus boundary data are ignored, and a load one entry short is undefined behaviour (wrong_lengths_reported_refuted). Boundary data: every wrong length is rejected on every mesh of more than one leaf (wrong_boundary_rejected), on a leaf only short data are. Loads: surplus entries are ignored (long_load_ignored); short ones are undefined behaviour with FISHPACK, and with the five-point solver exactly if the length is a multiple of n or larger than (n-1)n, otherwise std::out_of_range. A stage that ends normally had complete loads (upwards_loads_complete).'),
'C90': ('partial', 'False on a single leaf: build and then solve without upwards stage is undefined behaviour with both solvers (single_leaf_order_undefined, stage_order_reported_refuted). Proved on every mesh of more than one leaf, and for boundary conditions given as functions on every mesh. The upwards stage before the build ends in LAPACK rejecting dimension 0; an argument that BLAS or LAPACK rejects counts as reported (XERBLA stops the program).'),
'C91': ('proved', 'Quadtree of any shape on which the glued problem is well posed (which is then so on the moved domain, moved_well_posed). Five-point solver with variable coefficients, and FISHPACK with lambda and loads divided by s squared.'),
'C92': ('proved', 'Quadtree of any shape on which the glued problem is well posed (which is then so on the mirrored domain, mirrored_well_posed). Five-point solver with variable coefficients, and FISHPACK. The mirror image in y is the mirror image in x between two exchanges of x and y.'),
'C93': ('proved', 'From the construction of the quadtree on; barriers, options and output left out. The states are stated leaf by leaf on the map of the rank that owns the leaf. On other partitions the five-point solver need not end at all, see C85. Exact rational arithmetic.'),
}
