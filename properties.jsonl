{"id": "C01", "title": "Transposing a matrix", "statement": "For a matrix A with m rows and n columns, A.T() has n rows and m columns, its entry (j,i) equals A(i,j), and transposing twice gives back A.", "quantifier": "every element type, every m and n (including zero), every content", "why_tests_cant": "A test checks a few fixed shapes; the row-major index arithmetic has to be right for every pair of sizes.", "anchors": ["src/Matrix.hpp: Matrix::T, Matrix::operator()(i,j), Matrix::flattenIndex_"]}
{"id": "C02", "title": "Writing and reading a block", "statement": "setBlock(r,c,B) followed by getBlock(r,c,rows(B),cols(B)) returns B, every entry outside the block keeps its old value, and a block that does not fit inside the matrix is rejected with an exception and leaves the matrix unchanged.", "quantifier": "every matrix, every block, every position that a size_t can hold", "why_tests_cant": "The rejection rule is a comparison on unsigned sums that can wrap around; only reasoning over all size_t values shows which positions slip through.", "anchors": ["src/Matrix.hpp: Matrix::getBlock, Matrix::setBlock"]}
{"id": "C03", "title": "Selecting rows and columns by index set", "statement": "A(I,J) has size |I| x |J| and its entry (a,b) is A(I[a],J[b]) whenever all indices are in range; any index set containing an out-of-range index is rejected with an exception.", "quantifier": "every matrix, every pair of integer index sets", "why_tests_cant": "The per-index check in the code builds a message but does not throw, and the fallback check accepts index = size; enumeration of inputs cannot show which bad index sets are accepted.", "anchors": ["src/Matrix.hpp: Matrix::getFromIndexSet, Matrix::operator()(Vector<int>,Vector<int>), Matrix::flattenIndex_"]}
{"id": "C04", "title": "Block permutation of a matrix", "statement": "A.blockPermute(I,J,R,C), for permutations I and J of the block numbers, moves block (I[a],J[b]) of A to block position (a,b), keeps all entries, and is undone by the inverse permutations (with the block sizes permuted accordingly).", "quantifier": "every matrix, every list of block sizes, every pair of permutations", "why_tests_cant": "The global index lists are built by nested counters; a test sees one permutation and one block layout.", "anchors": ["src/Matrix.hpp: Matrix::blockPermute"]}
{"id": "C05", "title": "Concatenating vectors and taking segments", "statement": "concatenate({v1,...,vk}) has size equal to the sum of the sizes; getSegment at the offset of vi with length |vi| returns vi; setSegment followed by getSegment returns what was written and leaves the rest alone; a segment that does not fit is rejected with an exception.", "quantifier": "every list of vectors, every start and length a size_t can hold", "why_tests_cant": "The fit test is an unsigned sum that can wrap; tests use small numbers.", "anchors": ["src/Vector.hpp: concatenate, Vector::getSegment, Vector::setSegment, Vector::append"]}
{"id": "C06", "title": "Block permutation commutes with matrix-vector multiplication", "statement": "Permuting the columns of A and the entries of x by the same block permutation does not change A*x, and permuting rows of A permutes A*x: (A.blockPermute(I,J,R,C)) * (x.blockPermute(J,C)) = (A*x).blockPermute(I,R).", "quantifier": "every matrix, vector, block layout and pair of block permutations", "why_tests_cant": "This is the law that lets operators be reordered without changing what they mean; it ranges over all permutations and all data.", "anchors": ["src/Matrix.hpp: Matrix::blockPermute, operator*(Matrix,Vector)", "src/Vector.hpp: Vector::blockPermute"]}
{"id": "C07", "title": "Products computed through column-major BLAS", "statement": "For conforming shapes, A*x and A*B (computed by calling the column-major routines dgemv and dgemm on row-major storage) are the mathematical matrix-vector and matrix-matrix products; non-conforming shapes raise an exception.", "quantifier": "all shapes including non-square and empty, all contents, in exact arithmetic", "why_tests_cant": "Swapped leading dimensions or transposition flags can cancel on square or symmetric test data.", "anchors": ["src/Matrix.hpp: operator*(Matrix<double>,Vector<double>), operator*(Matrix<double>,Matrix<double>)"]}
{"id": "C08", "title": "Solving a linear system", "statement": "solve(A,b) and solve(A,B) return X with A*X = B whenever A is nonsingular; when A is singular the caller is told so by an exception.", "quantifier": "all square systems and all right-hand sides, in exact arithmetic, for any LAPACK obeying the dgesv contract", "why_tests_cant": "Row-major/column-major mix-ups solve the transposed system, which agrees on symmetric test matrices; the singular case is a whole family of inputs.", "anchors": ["src/Matrix.hpp: solve(Matrix,Vector), solve(Matrix,Matrix)"]}
{"id": "C09", "title": "Element access is bounds checked", "statement": "Reading v(i), v[i] or v.getEntry(i) returns the i-th element when i < size and raises std::out_of_range otherwise; the same holds for A(i,j).", "quantifier": "every vector and matrix, every index", "why_tests_cant": "A test that reads one past the end may or may not crash; whether the check is complete is a statement about all indices.", "anchors": ["src/Vector.hpp: Vector::getEntry, Vector::operator[], Vector::operator()", "src/Matrix.hpp: Matrix::getEntry, Matrix::operator(), Matrix::flattenIndex_"]}
{"id": "C10", "title": "Reading a contiguous range of a vector", "statement": "v.getRange(a,b) and v(a,b) return the entries v[a], v[a+1], ..., v[b].", "quantifier": "every vector and every a <= b < size", "why_tests_cant": "On the vector 0,1,2,... used in examples the wrong implementation returns the right answer.", "anchors": ["src/Vector.hpp: Vector::getRange, Vector::operator()(a,b)"]}
{"id": "C11", "title": "Reading and writing rows and columns", "statement": "getRow(i) returns row i, getCol(j) returns column j, setRow and setColumn replace exactly that row or column and change nothing else.", "quantifier": "every matrix shape, every valid row or column index", "why_tests_cant": "Mixing up the number of rows and columns is invisible on square matrices.", "anchors": ["src/Matrix.hpp: Matrix::getRow, Matrix::getCol, Matrix::setRow, Matrix::setColumn"]}
{"id": "C12", "title": "Arithmetic operators act entry by entry", "statement": "+, -, unary minus, scalar product, entrywise product and quotient, and their compound forms (+=, -=, *=, /=) give the entrywise result, compound and binary forms agree, and mismatched sizes raise an exception without modifying the operands.", "quantifier": "every vector and matrix, every scalar", "why_tests_cant": "Tests cover some operators on one input; a compound operator that performs the wrong operation can go unnoticed when it is not exercised.", "anchors": ["src/Vector.hpp: Vector arithmetic operators", "src/Matrix.hpp: Matrix arithmetic operators"]}
{"id": "C13", "title": "Coarse-to-fine interpolation is exact on linear data", "statement": "The coarse-to-fine boundary interpolation reproduces every linear function sampled at cell centres exactly (in particular every constant), and edge cells reproduce quadratics.", "quantifier": "every even number of fine cells that a coarsening step can request, every linear function", "why_tests_cant": "The matrix is built by index tests with special first and last rows; whether every row is right for every size is a claim over all sizes.", "anchors": ["src/SpecialMatrices.hpp: InterpolationMatrixCoarse2Fine"]}
{"id": "C14", "title": "Fine-to-coarse interpolation averages and conserves flux", "statement": "The fine-to-coarse matrix maps fluxes on 2n fine cells to n coarse cells by averaging neighbouring pairs, so the total flux through a side (sum of value times cell width) is unchanged; applied after coarse-to-fine interpolation it reproduces linear data.", "quantifier": "every n, every flux vector", "why_tests_cant": "Conservation must hold for every vector and every size.", "anchors": ["src/SpecialMatrices.hpp: InterpolationMatrixFine2Coarse"]}
{"id": "C15", "title": "Block diagonal assembly", "statement": "blockDiagonalMatrix({D1,...,Dk}) applied to a concatenated vector (v1;...;vk) gives the concatenation of Di*vi; all entries off the blocks are zero.", "quantifier": "any number of blocks of any (also non-square) sizes", "why_tests_cant": "Ranges over lists of arbitrary shapes.", "anchors": ["src/Matrix.hpp: blockDiagonalMatrix"]}
{"id": "C16", "title": "Merging four patches makes the flux continuous", "statement": "After merging four sibling patches, for any boundary data g on the parent, the interface values computed by the parent's solution operator make the fluxes of the two patches sharing each of the four interfaces equal.", "quantifier": "every interface resolution, every four child Dirichlet-to-Neumann matrices with a nonsingular interface system, every g", "why_tests_cant": "The merge uses twenty-eight index-set blocks with signs and a block permutation; wrong signs or swapped blocks only show up for unsymmetric operators.", "anchors": ["src/HPSAlgorithm.hpp: merge4to1, createIndexSets_, createMatrixBlocks_, mergeX_, mergeS_, reorderOperators_"]}
{"id": "C17", "title": "The merged Dirichlet-to-Neumann operator is the parent's flux map", "statement": "The parent's operator applied to any boundary data g returns, in west-east-south-north order with the lower/left half first, exactly the fluxes that the four children produce on the outer boundary when given their share of g and the interface values.", "quantifier": "every interface resolution, all children operators with nonsingular interface system, every g", "why_tests_cant": "Same as for the merge: a permutation error is invisible on symmetric problems.", "anchors": ["src/HPSAlgorithm.hpp: mergeT_, reorderOperators_"]}
{"id": "C18", "title": "Upward pass: particular solution of the merged patch", "statement": "After the upwards step the parent's flux vector is the outer flux of the composite particular solution: with zero outer boundary data, the interface values w make the children's total fluxes (operator part plus load part) continuous, and the parent's h collects the outer fluxes in west-east-south-north order.", "quantifier": "every resolution, all operators with nonsingular interface system, all child load fluxes", "why_tests_cant": "Depends on sign conventions in the flux jump for four interfaces at once.", "anchors": ["src/HPSAlgorithm.hpp: upwards4to1, mergeW_, mergeH_, reorderOperatorsUpwards_"]}
{"id": "C19", "title": "Downward pass: children receive consistent boundary data", "statement": "When a parent is split, each child's outer boundary data is the matching piece of the parent's data, and the two children sharing an interface receive the same values on it.", "quantifier": "every resolution, every parent operator and boundary data", "why_tests_cant": "Twelve segments have to land in sixteen slots; a test on symmetric data does not see a swap.", "anchors": ["src/HPSAlgorithm.hpp: split1to4, applyS_"]}
{"id": "C20", "title": "The direct solver returns the solution of the glued problem on any quadtree", "statement": "After buildStage, upwardsStage and solveStage, the leaf solutions together solve the discrete composite problem: every leaf solves its patch problem for its boundary data and load, boundary data on both sides of every sibling interface agree (through the coarse/fine interpolation where resolutions differ), fluxes match there, and the domain boundary carries the prescribed data. No other assignment does so.", "quantifier": "every quadtree shape and depth, uniform or adaptive, every leaf size, every load and boundary data, every patch solver whose boundary-to-flux map is affine", "why_tests_cant": "The claim is over all trees; it needs induction over the merge and split recursion.", "anchors": ["src/HPSAlgorithm.hpp: buildStage, upwardsStage, solveStage"]}
{"id": "C21", "title": "Repeated solves do not depend on history", "statement": "After one buildStage, any number of upwardsStage and solveStage calls may follow; the result of the last solve depends only on the last load and the last boundary data, and equals what a fresh solver would give.", "quantifier": "every finite sequence of upwardsStage/solveStage calls, every tree", "why_tests_cant": "Stages mutate shared patch data (fluxes are coarsened in place, boundary data is refined in place); only a statement over all histories excludes leaks.", "anchors": ["src/HPSAlgorithm.hpp: upwardsStage, solveStage, coarsenUpwards_, uncoarsen_"]}
{"id": "C22", "title": "Rebuilding operators", "statement": "Calling buildStage a second time on the same mesh (for example after changing a coefficient) leaves the solver in the same state as building once with the new coefficients.", "quantifier": "every mesh, every pair of coefficient sets", "why_tests_cant": "A counter that is not reset only matters on adaptive meshes on the second call.", "anchors": ["src/HPSAlgorithm.hpp: buildStage, coarsen_", "src/Patch.hpp: PatchBase::n_coarsens, PatchBase::size"]}
{"id": "C23", "title": "Caching leaf operators does not change the answer", "statement": "With the option cache-operators switched on, buildStage produces the same operators as with it off.", "quantifier": "every mesh and every patch solver", "why_tests_cant": "On a uniform mesh with constant coefficients the two agree; the claim is about all meshes and coefficients.", "anchors": ["src/HPSAlgorithm.hpp: buildStage, matrixCache"]}
{"id": "C24", "title": "Coarsening equalises sibling resolutions and spares leaves", "statement": "During the build every family of four siblings is brought to a common side resolution, the smallest of the four; leaf patches are never coarsened; all operators, flux vectors and boundary vectors used together have matching sizes, so no stage throws a size error on any tree.", "quantifier": "every quadtree, every leaf side length n >= 3", "why_tests_cant": "The number of coarsening steps comes from logarithms of sizes that depend on the whole subtree; needs induction over trees.", "anchors": ["src/HPSAlgorithm.hpp: tagPatchesForCoarsening_, coarsen_, mergePatch_, coarsenUpwards_, uncoarsen_", "src/Patch.hpp: PatchBase::size"]}
{"id": "C25", "title": "General boundary conditions at the root", "statement": "When solveStage is given a(x,y), b(x,y), r(x,y), the Dirichlet data g it computes satisfies a*g + b*(T*g + h) = r at every boundary point, i.e. the requested mixed condition holds with the computed flux; with a=1, b=0 it reduces to g = r.", "quantifier": "all coefficient and data functions with a nonsingular boundary system, all root operators", "why_tests_cant": "Ranges over arbitrary coefficient functions.", "anchors": ["src/HPSAlgorithm.hpp: solveStage(boundary_analytical_function)", "src/SpecialMatrices.hpp: DiagonalMatrix"]}
{"id": "C26", "title": "Homogeneous right-hand side option", "statement": "With the option homogeneous-rhs on, the three stages produce the same solution as running with the option off and a zero load.", "quantifier": "every mesh, every boundary data", "why_tests_cant": "The option skips computations whose results are used elsewhere; needs to hold for every tree and boundary function.", "anchors": ["src/HPSAlgorithm.hpp: upwards4to1, leafSolve, applyS_, solveStage"]}
{"id": "C27", "title": "The five-point system discretises the elliptic equation with the given boundary values", "statement": "The linear system assembled by the five-point patch solver states, for every cell, alpha*(flux differences of beta*grad u) + lambda*u = f with boundary values imposed through ghost cells whose average with the boundary cell is the given value.", "quantifier": "all patches with n >= 2 cells per side, all coefficient functions, all boundary data and loads", "why_tests_cant": "Nine hand-written cases (corners, edges, interior) with their own coefficient lists; each must be right for all coefficients.", "anchors": ["src/Patches/FiniteVolume/FiniteVolumeSolver.cpp: FiniteVolumeSolver::solve (FivePointStencil)"]}
{"id": "C28", "title": "The leaf flux map is affine and matches its matrix", "statement": "For every boundary data g and load f, the flux returned by mapD2N(grid,g,f) equals buildD2N(grid)*g + particularNeumannData(grid,f).", "quantifier": "all patches whose cell system is nonsingular, all g and f", "why_tests_cant": "buildD2N samples unit vectors; that these columns represent the map for every g is a linearity claim over all inputs.", "anchors": ["src/Patches/FiniteVolume/FiniteVolumeSolver.cpp: mapD2N, buildD2N, particularNeumannData"]}
{"id": "C29", "title": "Fluxes are consistent derivatives with one sign convention", "statement": "The boundary flux of a patch is the one-sided difference of the solution in the +x direction on west and east and in the +y direction on south and north, so that a shared face seen from both patches carries the same sign; on a linear solution it equals the exact derivative.", "quantifier": "all patches, all linear functions, all data", "why_tests_cant": "The sign convention must agree between four sides and with the merge equations for all inputs.", "anchors": ["src/Patches/FiniteVolume/FiniteVolumeSolver.cpp: mapD2N"]}
{"id": "C30", "title": "The two leaf solvers agree", "statement": "With alpha = beta = 1 and constant lambda the FISHPACK branch and the five-point branch of the patch solver return the same solution; for other coefficients each solves the equation described by the coefficient functions.", "quantifier": "all square patches, all data, any FISHPACK routine obeying its documented contract", "why_tests_cant": "The FISHPACK path transposes data in both directions and ignores most coefficient functions; symmetric tests hide this.", "anchors": ["src/Patches/FiniteVolume/FiniteVolumeSolver.cpp: FiniteVolumeSolver::solve (FISHPACK90)"]}
{"id": "C31", "title": "Rectangular patches", "statement": "The patch solver accepts any patch with nx cells in x and ny cells in y and solves the corresponding problem.", "quantifier": "all nx, ny >= 2", "why_tests_cant": "Tests only use nx = ny.", "anchors": ["src/Patches/FiniteVolume/FiniteVolumeSolver.cpp: solve, mapD2N, buildD2N, particularNeumannData"]}
{"id": "C32", "title": "Leaves tile the domain", "statement": "The leaf patches of the quadtree cover the domain exactly: areas add up, no two leaves overlap in their interior, every point of the domain lies in a leaf, neighbouring leaves share their edges exactly; children have the same cell counts as the parent.", "quantifier": "every quadtree shape, every domain rectangle", "why_tests_cant": "Ranges over all trees; needs induction.", "anchors": ["src/Patches/FiniteVolume/FiniteVolumeNodeFactory.cpp: createChildNode", "src/Quadtree.hpp: Quadtree constructor"]}
{"id": "C33", "title": "Creating a parent from its children inverts creating the children", "statement": "createParentNode applied to the four nodes made by createChildNode from a node returns a node with the same grid, path and level.", "quantifier": "every node at every level", "why_tests_cant": "Ranges over all grids and paths.", "anchors": ["src/Patches/FiniteVolume/FiniteVolumeNodeFactory.cpp: createChildNode, createParentNode"]}
{"id": "C34", "title": "Node paths identify quadrants", "statement": "The path of a quadrant has length level+1, different quadrants have different paths, and the path of the i-th child is the parent's path followed by the digit i; the path computed from the quadrant's coordinates and the path built by the node factory coincide.", "quantifier": "every quadrant up to the maximum level", "why_tests_cant": "Paths are the keys under which all data is stored; uniqueness is a claim over all pairs of quadrants.", "anchors": ["src/P4est.cpp: p4est_quadrant_path", "src/Patches/FiniteVolume/FiniteVolumeNodeFactory.cpp: createChildNode"]}
{"id": "C35", "title": "Traversal order", "statement": "Pre-order traversal visits every locally owned node exactly once, parents before children and children in the order lower-left, lower-right, upper-left, upper-right; post-order and merge visit children before their parent; split visits a family before its children's families; leaves appear in the same order in all traversals.", "quantifier": "every quadtree, every visiting callback", "why_tests_cant": "Ordering claims over all trees.", "anchors": ["src/Quadtree.hpp: traversePreOrder, traversePostOrder, merge, split, p4est_search_visit, p4est_search_merge_split"]}
{"id": "C36", "title": "The path-keyed map behaves like the tree", "statement": "Running merge or split over the path-keyed node map has the same effect on every node as the recursive definition on the tree: each family callback sees the up-to-date data of its parent and its four children, and no other node changes.", "quantifier": "every tree, every leaf callback and family callback", "why_tests_cant": "Aliasing between keys would only show for particular trees; the claim is over all trees and callbacks.", "anchors": ["src/Quadtree.hpp: map, merge, split, p4est_search_merge_split"]}
{"id": "C37", "title": "Parallel merge and split do not deadlock and give the serial result", "statement": "For any distribution of leaves over ranks in contiguous ranges, the collective operations issued by merge and split always complete, whatever the relative speed of the ranks, and every rank that owns a node ends with the same data for it as a serial run.", "quantifier": "every tree, every contiguous partition over any number of ranks, every interleaving", "why_tests_cant": "Schedules cannot be enumerated by tests; a mismatch in the order of collectives hangs only for some partitions and timings.", "anchors": ["src/Quadtree.hpp: p4est_search_merge_split", "src/MPI.cpp: communicatorSubsetRange", "src/QuadNode.hpp: MPI::broadcast"]}
{"id": "C38", "title": "All ranks agree on who broadcasts a child", "statement": "When a family is spread over several ranks, the rank chosen as broadcast root for each child is the same on all ranks of the family and is a rank that holds that child.", "quantifier": "every distribution of a family over ranks", "why_tests_cant": "The choice is a maximum over ranks where non-holders contribute 0; whether it can pick a non-holder needs all distributions.", "anchors": ["src/Quadtree.hpp: p4est_search_merge_split"]}
{"id": "C39", "title": "Ownership of nodes", "statement": "On every rank, a node object exists exactly for the quadrants whose rank range contains that rank; a parent's range is spanned by its children's ranges; each leaf is owned by exactly one rank; each owned node was created from an existing parent node.", "quantifier": "every tree and every contiguous partition of its leaves", "why_tests_cant": "Over all trees and partitions.", "anchors": ["src/Quadtree.hpp: Quadtree constructor"]}
{"id": "C40", "title": "Traversals work on any quadtree that was constructed", "statement": "Every traversal function may be called on any constructed quadtree in any order and operates on that quadtree.", "quantifier": "every sequence of constructions, move assignments and traversal calls", "why_tests_cant": "Traversals depend on a pointer that only one of them sets; whether it is valid depends on the whole call history.", "anchors": ["src/Quadtree.hpp: traversePreOrder, traversePostOrder, merge, split, operator=(Quadtree&&)"]}
{"id": "C41", "title": "Refinement by function", "statement": "refineByFunction refines a quadrant exactly when its level is below the maximum and the predicate holds at one of its cell centres; the result has no leaf above min_level or deeper than max_level (when min_level <= max_level), refinement terminates for every predicate, and every leaf below the maximum level that was not created by balancing has no cell centre satisfying the predicate.", "quantifier": "every predicate, min and max level, domain and cell count", "why_tests_cant": "The predicate is an arbitrary user function.", "anchors": ["src/Mesh.hpp: Mesh::refineByFunction"]}
{"id": "C42", "title": "Exported mesh arrays describe the leaf cells", "statement": "After refinement the mesh has one quadrilateral per leaf cell: the number of cells is the number of leaves times nx*ny, there are four points per cell, connectivity lists refer to the corners of the cell in counter-clockwise order, offsets and types have one entry per cell as the VTK format requires.", "quantifier": "every quadtree and patch size", "why_tests_cant": "Array lengths and contents must be right for all meshes; tests do not parse the output.", "anchors": ["src/Mesh.hpp: Mesh::setMeshFromQuadtree, getNumberOfPoints, getNumberOfCells, getConnectivity, getOffsets, getTypes"]}
{"id": "C43", "title": "Refining a mesh again replaces the old mesh", "statement": "After calling refineByFunction a second time on the same mesh object, the exported arrays describe the new mesh only.", "quantifier": "every pair of refinements", "why_tests_cant": "History-dependent: arrays are appended to and never cleared.", "anchors": ["src/Mesh.hpp: refineByFunction, setMeshFromQuadtree"]}
{"id": "C44", "title": "Mesh functions line up with cells", "statement": "The k-th value of a mesh function added by addMeshFunction(fn,name) is fn at the centre of the k-th cell of the exported mesh, and the k-th entry of the solution gathered leaf by leaf belongs to the same cell.", "quantifier": "every mesh, every function", "why_tests_cant": "Requires the cell order of three different loops to coincide for all meshes.", "anchors": ["src/Mesh.hpp: addMeshFunction, iterateCells, iteratePatches, setMeshFromQuadtree", "src/HPSAlgorithm.hpp: upwardsStage"]}
{"id": "C45", "title": "Written XML can be read back", "statement": "The text produced by XMLTree::write is well-formed nested XML: reading it back gives the same element names, attributes, data and children in the same order.", "quantifier": "every tree of XML nodes", "why_tests_cant": "Well-formedness for all names, values and data, including those containing markup characters.", "anchors": ["src/XMLTree.cpp: XMLTree::write, XMLTree::write_"]}
{"id": "C46", "title": "Writing VTK output twice", "statement": "toVTK may be called several times on the same writer object; each call writes a complete file describing the current mesh and data.", "quantifier": "every number of calls", "why_tests_cant": "Depends on lifetimes of nodes from earlier calls.", "anchors": ["src/VTK.cpp: UnstructuredGridVTK::toVTK, PUnstructuredGridVTK::toVTK, RectilinearGridVTK::toVTK"]}
{"id": "C47", "title": "The parallel VTK header lists exactly the files that the ranks write", "statement": "The header written by the head rank contains one piece per rank, and the piece names are exactly the file names written by the ranks.", "quantifier": "every number of ranks and every base file name", "why_tests_cant": "File names are passed through printf-style formatting into a fixed buffer; behaviour for all names and rank counts.", "anchors": ["src/VTK.cpp: PUnstructuredGridVTK::toVTK"]}
{"id": "C48", "title": "Option values keep their type and value", "statement": "A value given in an INI file or as --key=value on the command line is stored with its natural type: true/false as bool, integers (also negative) as int, decimal numbers as double, and any other text as that string.", "quantifier": "every value string", "why_tests_cant": "The classification is by character tests; all strings have to be considered.", "anchors": ["src/Options.cpp: checkValue, isInt, isDouble, readINIFile", "src/InputParser.cpp: InputParser::parse"]}
{"id": "C49", "title": "INI files: sections, comments and precedence", "statement": "Reading an INI file sets exactly the keys of the matching section, ignores comments, blank lines and other sections, trims white space, and for repeated keys the last one wins; keys not mentioned keep their value.", "quantifier": "every file content, every prior option set", "why_tests_cant": "Ranges over all texts.", "anchors": ["src/Options.cpp: readINIFile, stripWhitespace, setFromFile"]}
{"id": "C50", "title": "Reading an option does not change the set of options", "statement": "options[key] for a key that was never set does not make optionExists(key) true, and cache lookups behave the same: contains(key) is true exactly for keys that were stored.", "quantifier": "every sequence of set, get and query operations", "why_tests_cant": "History property over arbitrary operation sequences.", "anchors": ["src/Options.cpp: operator[], optionExists, setOption", "src/DataCache.hpp: operator[], contains"]}
{"id": "C51", "title": "Interpolation does not depend on previous queries", "statement": "The value of an interpolant at x is a function of the table and x only, whatever queries came before; at table points it returns the table value, and it is exact for linear data.", "quantifier": "every strictly monotone table (ascending or descending) with at least two points, every sequence of queries", "why_tests_cant": "The object keeps search state between calls; only a statement over all query histories shows it does not leak into results.", "anchors": ["src/Interpolation.cpp: InterpolantBase::operator(), locate_, hunt_, LinearInterpolant::rawInterp"]}
{"id": "C52", "title": "Messages: what is received is what was sent", "statement": "Receiving a vector, matrix, grid, patch or node (by send/receive or broadcast) yields an object equal to the one sent, for every content including empty ones.", "quantifier": "every value of every communicated type, every previous content of the receiving object", "why_tests_cant": "Depends on the receiver's previous content (buffer sizes) and on empty containers, for all values.", "anchors": ["src/MPI.hpp: send, receive, broadcast (vector)", "src/MPI.cpp: send, receive, broadcast (string)", "src/Vector.hpp and src/Matrix.hpp: MPI namespace", "src/Patches/FiniteVolume/FiniteVolumePatch.cpp: broadcast", "src/QuadNode.hpp: send, receive, broadcast"]}
{"id": "C53", "title": "Timers accumulate", "statement": "A named timer reports the total of all start/stop intervals since it was created or restarted; running a solver stage again adds to the stage's timer.", "quantifier": "every sequence of start, stop, restart and stage calls, every clock", "why_tests_cant": "History property.", "anchors": ["src/Timer.cpp: start, stop, time, restart", "src/EllipticForestApp.cpp: addTimer", "src/HPSAlgorithm.hpp: addTimer calls"]}
{"id": "C54", "title": "Parallel matrices are destroyed exactly once", "statement": "Every PETSc matrix created through ParallelMatrix is destroyed exactly once however the wrapper objects are copied, assigned and destroyed.", "quantifier": "every sequence of constructions, copies, assignments and destructions", "why_tests_cant": "Resource ownership over all histories.", "anchors": ["src/Matrix.hpp: ParallelMatrix constructors, copy constructor, move assignment, destructor"]}
{"id": "C55", "title": "Superposition of solutions", "statement": "The computed solution depends linearly on load and boundary data together: solving with (f1+c*f2, g1+c*g2) gives u1 + c*u2.", "quantifier": "every tree, every pair of data, every scalar, every affine patch solver", "why_tests_cant": "Universal linearity claim over all data.", "anchors": ["src/HPSAlgorithm.hpp: upwardsStage, solveStage"]}
{"id": "C56", "title": "The direct solver returns the solution of the glued problem (leaf side at least 3, or no change of resolution)", "statement": "After buildStage, upwardsStage and solveStage, the leaf solutions together solve the discrete composite problem: every leaf solves its patch problem for its boundary data and load, boundary data on both sides of every sibling interface agree (through the coarse/fine interpolation where resolutions differ), fluxes match there, and the domain boundary carries the prescribed data. No other assignment does so.", "quantifier": "every quadtree shape and depth with at least three cells per leaf side, and every quadtree without coarse/fine interfaces for any leaf side; every load and boundary data, every patch solver whose boundary-to-flux map is affine, every dense solver meeting the LAPACK contract", "why_tests_cant": "The claim is over all trees; it needs induction over the merge and split recursion.", "anchors": ["src/HPSAlgorithm.hpp: buildStage, upwardsStage, solveStage"]}
{"id": "C57", "title": "The cell problem is uniquely solvable under sign conditions", "statement": "If beta > 0, alpha does not vanish and alpha*lambda <= 0, the discrete cell problem of the five-point patch solver has at most one solution, so the patch solver returns the solution for all data.", "quantifier": "all rectangles, all cell numbers, all coefficient functions with these signs, all data", "why_tests_cant": "Quantifies over all coefficient functions and grid sizes; a discrete maximum principle is needed.", "anchors": ["src/Patches/FiniteVolume/FiniteVolumeSolver.cpp"]}
{"id": "C58", "title": "On a uniform mesh the direct solver returns the solution of the global five-point problem", "statement": "On a uniformly refined rectangle, buildStage, upwardsStage and solveStage all return, the leaf solutions are the blocks of the one solution of the five-point discretisation on the whole rectangle, and operator and load flux at the root give the boundary flux of that solution.", "quantifier": "every refinement depth, leaf size, right hand side, boundary data, coefficients with the signs of C57, any LAPACK, LU and FISHPACK meeting their contracts", "why_tests_cant": "Tests compare one mesh with a manufactured solution up to discretisation error; this is exact equality for all meshes and data.", "anchors": ["src/HPSAlgorithm.hpp", "src/Patches/FiniteVolume/FiniteVolumeSolver.cpp"]}
{"id": "C59", "title": "Parallel direct solver equals the serial one when no rank in between is empty", "statement": "For any tree distributed over ranks in contiguous ranges such that every rank between the first and the last rank with leaves has leaves, and without cached operators, constructing the quadtree and running build, upwards and solve stage ends on all ranks in every order in which collectives complete, and every rank with leaves then holds the data of the serial run, provided the serial run succeeds.", "quantifier": "every tree, every contiguous partition without gaps, every order of collectives, every patch solver and dense solver", "why_tests_cant": "Schedules and partitions cannot be enumerated.", "anchors": ["src/Quadtree.hpp: p4est_search_merge_split", "src/HPSAlgorithm.hpp: buildStage, upwardsStage, solveStage"]}
{"id": "C60", "title": "Linear functions are reproduced exactly on every locally refined mesh", "statement": "If the boundary data are a linear function in the middle of the root's boundary faces and the loads are the discrete operator applied to it, then buildStage, upwardsStage and solveStage return that linear function on the boundary and in the cells of every leaf, and the root operator and load flux give its constant gradient, wherever the mesh changes resolution.", "quantifier": "every quadtree shape on which the glued problem is well posed, every rectangle, leaf size, linear function, coefficients with the signs of C57, any LAPACK, LU and FISHPACK meeting their contracts", "why_tests_cant": "Tests use a few adaptive meshes; the claim is about all shapes and all changes of resolution between siblings.", "anchors": ["src/HPSAlgorithm.hpp: coarsen_, uncoarsen_, merge_, split_", "src/Patches/FiniteVolume/FiniteVolumeSolver.cpp"]}
{"id": "C61", "title": "Fluxes and sources balance on every locally refined mesh", "statement": "For constant beta, beta times the flux out of the root computed by the solver, integrated over its boundary faces, equals the sum over all cells of all leaves of cell area times (f - lambda u)/alpha: no flux is lost or created at interfaces, also where the resolution changes.", "quantifier": "every quadtree shape on which the glued problem is well posed, all boundary data and loads, every rectangle and leaf size, coefficients with the signs of C57 and constant beta", "why_tests_cant": "Conservation at hanging interfaces for all data and shapes cannot be enumerated; floating point tests only see approximate equality.", "anchors": ["src/HPSAlgorithm.hpp: coarsen_, uncoarsen_, merge_, split_", "src/Patches/FiniteVolume/FiniteVolumeSolver.cpp"]}
{"id": "C62", "title": "Norms of differences", "statement": "vectorInfNorm and matrixInfNorm return the largest modulus of the difference of corresponding entries (zero for empty operands, zero exactly for equal operands), vectorL2Norm takes the root of the sum of squared differences, and operands of different sizes raise an exception.", "quantifier": "every pair of vectors, every pair of well-formed matrices", "why_tests_cant": "Every error report of the examples relies on these norms; tests only use a few vectors.", "anchors": ["src/Vector.hpp: vectorInfNorm, vectorL2Norm", "src/Matrix.hpp: matrixInfNorm"]}
{"id": "C63", "title": "Comparison and maximum principle for the direct solver", "statement": "With the signs of C57, smaller boundary data and larger f/alpha give a smaller solution in every cell of every leaf, and the solution stays below a nonnegative bound of the data where f/alpha >= 0 and above a nonpositive bound where f/alpha <= 0.", "quantifier": "every rectangle and grid; every uniform tree depth and leaf size >= 2, all data and loads, any LAPACK and LU meeting their contracts", "why_tests_cant": "A monotonicity claim compares all pairs of runs.", "anchors": ["src/HPSAlgorithm.hpp", "src/Patches/FiniteVolume/FiniteVolumeSolver.cpp"]}
{"id": "C64", "title": "Second order convergence of the direct solver", "statement": "For beta = 1 and the signs of C57, boundary data within eg and loads within ef of those of a function V whose second differences are at most M2 d^2 and within M4 d^4 of d^2 Vxx and d^2 Vyy, the three stages on 2^l by 2^l leaves return values which differ from V at the cell centres by at most eg + ef R + C / 4^l, with explicit R and C; for exact data the error falls below every tolerance.", "quantifier": "every rectangle, leaf size, depth, function V, data, any LAPACK, LU and FISHPACK meeting their contracts", "why_tests_cant": "Tests observe a rate on a few meshes and one solution; the claim holds for all meshes and all such functions, with a constant.", "anchors": ["src/HPSAlgorithm.hpp", "src/Patches/FiniteVolume/FiniteVolumeSolver.cpp"]}
{"id": "C65", "title": "Mixed boundary conditions always have a solution and the direct solver finds it", "statement": "For coefficients with the signs of C57 and a condition a u + b du/dn = r on every boundary face where a and the coefficient of the outward derivative do not have opposite signs and are not both zero (and a or lambda is nonzero somewhere), build, upwards (from a load function) and solve (from the functions a, b, r) succeed on a uniform mesh, and boundary data and leaf values are the one solution of the discrete problem on the whole rectangle that satisfies the condition in every boundary face. In particular, for a = 1, b = 0 the program of the examples returns values within C/4^l of a smooth solution.", "quantifier": "every rectangle, leaf size, depth, load and boundary functions, any LAPACK, LU and FISHPACK meeting their contracts", "why_tests_cant": "The boundary system is solved without a check for singularity; that it is regular for all meshes and all admissible conditions is a mathematical claim.", "anchors": ["src/HPSAlgorithm.hpp: upwardsStage(function), solveStage(function)", "src/Patches/FiniteVolume/FiniteVolumeSolver.cpp", "examples"]}
{"id": "C66", "title": "Scalar product, unit and diagonal matrices, entries of a vector by index set", "statement": "v * w is the sum of the products of the entries, IdentityMatrix is neutral for products with vectors and matrices from either side, DiagonalMatrix scales entries, and v(I) has the entries v[I[a]] and rejects index sets with an index out of range.", "quantifier": "all vectors, sizes and index sets", "why_tests_cant": "Ranges over all sizes; the index check is off by one exactly at index = size.", "anchors": ["src/Vector.hpp: operator*, getFromIndexSet, operator()(Vector<int>)", "src/SpecialMatrices.hpp: IdentityMatrix, DiagonalMatrix"]}
{"id": "C67", "title": "The Dirichlet-to-Neumann operator is symmetric, positive and of positive type", "statement": "Green's identity holds for any two discrete solutions on a rectangle: the boundary work of one flux on the other's data, minus the reverse, is the difference of the work of the loads. For coefficients with the signs of C57, the operator T that buildStage leaves at the root of a uniform mesh is symmetric and nonnegative in the beta- and area-weighted product of the boundary; in the outward direction its diagonal is nonnegative and its other entries are nonpositive; equal boundary values give a nonnegative outward flux, and zero flux when lambda = 0.", "quantifier": "every rectangle, leaf size, depth, variable coefficients, boundary data, any LAPACK, LU and FISHPACK meeting their contracts", "why_tests_cant": "Tests evaluate T for a few sizes in floating point; sign and symmetry of every entry for every mesh and coefficient are out of reach.", "anchors": ["src/HPSAlgorithm.hpp", "src/Patches/FiniteVolume/FiniteVolumeSolver.cpp: buildD2N"]}
{"id": "C68", "title": "The shortened construction of buildD2N gives the same operator as the full one", "statement": "With DTN_OPTIMIZE defined, buildD2N solves only for the columns of the West side and fills the other blocks with copies, transposes, sign changes and reversals of them. The operator so obtained equals the one built column by column.", "quantifier": "every square patch, every size, every coefficient functions, any LU and FISHPACK meeting their contracts", "why_tests_cant": "The branch is compiled by no configuration of the project, so no test runs it; whether it is right depends on symmetries of all solutions for all sizes and coefficients.", "anchors": ["src/Patches/FiniteVolume/FiniteVolumeSolver.cpp: 355-443 buildD2N"]}
{"id": "C69", "title": "The thermal example takes backward Euler steps of the heat equation and stays bounded", "statement": "Every iteration of the time loop of examples/thermal succeeds and leaves on the leaves the unique state that one more step of backward Euler for du/dt = div(beta grad u) + q gives, with the prescribed values in the west and in the east and the prescribed derivatives in the south and in the north; the build stage is used again unchanged by every iteration. With insulated sides and whatever length of step, no value leaves the range of the walls and the initial value by more than the source can have added. The values of iteration 0, at t_start, are the initial values, and dudnSouth is the derivative along the outward normal.", "quantifier": "every uniform mesh, leaf size, depth, number of iterations, step length, positive beta, boundary functions and sources of position and time, any LAPACK and LU meeting their contracts", "why_tests_cant": "Tests run one setting of the example for finitely many steps in floating point; unconditional stability and the meaning of every iteration are statements about all of them.", "anchors": ["examples/thermal/main.cpp: 68-158, 287-355", "src/HPSAlgorithm.hpp: upwardsStage, solveStage"]}
{"id": "C70", "title": "The error reports of the examples are the errors of the mesh and of second order", "statement": "The error report of elliptic-multiple succeeds and gives the mean and the mean square of the error over the area and its largest size. The mean is at most the root of the mean square, which is at most the largest. On uniform meshes all three are within the second order bound of C64 and nDOFs is the square of the effective resolution; for linear functions they are zero on meshes refined in places too. The example patch-solver prints an error of at most C / n^2. On several ranks every rank prints the report of the whole mesh.", "quantifier": "every mesh, leaf size, depth, smooth solution, coefficient functions, distribution of the leaves over ranks, any LAPACK, LU and FISHPACK meeting their contracts", "why_tests_cant": "Tests print the errors of some meshes; that the printed order holds for every mesh and solution, and that the norms are those of the mesh, needs a proof.", "anchors": ["examples/elliptic-multiple/main.cpp: 345-374", "examples/patch-solver/main.cpp: 88-140"]}
{"id": "C71", "title": "Leaf rectangles and cell centres in double arithmetic", "statement": "Computed in IEEE double arithmetic by the node factory, the rectangles of the leaves tile the root rectangle without gap or overlap: bounds are finite and in order, every point lies in a leaf, interiors are disjoint, exact areas add up, and leaves that meet share the same coordinate; a parent made from its children has the bounds the children were made from, bit for bit. Bounds differ from exact arithmetic by at most 2^-46 of the size of the root's bounds, widths by 2^-50, cell centres by 2^-48; leaves have positive width and cell centres are increasing and inside. Bounds and, for 2^k cells per side, cell centres carry no rounding error at all if the root's bounds are multiples of a power of two with few digits.", "quantifier": "every tree of depth at most 29, every partition over ranks, every root whose bounds are finite and below half of the range of doubles (tiling); size of the bounds at least 2^-900, root not thinner than 2^-20 of it (positive width), cells wider than 2^-47 of it (order of centres); digits of the bounds plus depth plus k at most 50 (no rounding)", "why_tests_cant": "Rounding depends on every bit of the bounds and is repeated at each of up to 29 levels; thin or distant domains and the ends of the range are rarely tried.", "anchors": ["src/Patches/FiniteVolume/FiniteVolumeNodeFactory.cpp: createChildNode, createParentNode", "src/Patches/FiniteVolume/FiniteVolumeGrid.cpp: FiniteVolumeGrid, point"]}
{"id": "C72", "title": "Norms of differences in double arithmetic", "statement": "Computed in IEEE double arithmetic, vectorInfNorm and matrixInfNorm of finite data return the greatest exact difference of entries rounded once. The norm is zero exactly if the entries are equal. Data that are not numbers show up in the norm.", "quantifier": "all vectors of the same length and matrices of the same shape, differences below the range of doubles for the rounding", "why_tests_cant": "Tests compare results with the norm itself; what rounding, signed zeros and NaN do to it for all data is not seen by them.", "anchors": ["src/Vector.hpp: vectorInfNorm, vectorL2Norm", "src/Matrix.hpp: matrixInfNorm"]}
{"id": "C73", "title": "In-place updates with aliased arguments, copies and construction from data", "statement": "The in-place operators -=, *=, /= with a scalar combine every entry with the value the scalar had before the call, also if it is an entry of the vector; a vector may be added to or subtracted from itself. Copies and assignments take over entries and name. A matrix made from r*c entries has them by rows and other lengths are rejected.", "quantifier": "all vectors, scalars inside or outside the vector, entry types and operations", "why_tests_cant": "Whether a reference aliases an entry changes the result only for entries behind it; tests pass constants.", "anchors": ["src/Vector.hpp: operator+=, operator-=, operator*=, operator/=, Vector(const Vector&), operator=", "src/Matrix.hpp: Matrix(nrows, ncols, data)"]}
{"id": "C74", "title": "Quadtrees give back what they allocate", "statement": "Construction allocates one node and one communicator for every quadrant whose range contains the rank, and every call it makes to MPI is legal. Merge and split leave no node behind. Destruction and moving give back the nodes and communicators of a quadtree.", "quantifier": "all trees of depth at most 29, contiguous partitions, ranks, and programs of constructions, moves, destructions, merges and splits", "why_tests_cant": "Leaks do not change results, and communicators run out only after many meshes on many ranks.", "anchors": ["src/Quadtree.hpp: 118-231, 438-494", "src/MPI.cpp: communicatorSubsetRange"]}
{"id": "C75", "title": "The direct solver has a unique solution to find on every mesh", "statement": "If beta > 0, alpha does not vanish and alpha*lambda <= 0, the equations that the stages solve at the interfaces are uniquely solvable on every quadtree, so that no merge meets a singular matrix.", "quantifier": "all quadtree shapes, leaf sizes, rectangles and coefficient functions with these signs", "why_tests_cant": "Whether the interface matrix is singular depends on the mesh and the coefficients together; the tests use a few of both.", "anchors": ["src/HPSAlgorithm.hpp: coarsen_, merge_", "src/Patches/FiniteVolume/FiniteVolumeSolver.cpp"]}
{"id": "C76", "title": "Fluxes and sources balance when beta varies", "statement": "The flux beta du/dn out of the root, integrated over its boundary, is the integral of (f - lambda u)/alpha over all cells of all leaves, for every positive coefficient function beta.", "quantifier": "all meshes on which the glued problem is well posed, boundary data, loads and coefficients with the signs of C57", "why_tests_cant": "A loss of flux at a change of resolution is hidden in the discretisation error of a test.", "anchors": ["src/HPSAlgorithm.hpp: coarsen_, merge_", "src/Patches/FiniteVolume/FiniteVolumeSolver.cpp: mapD2N"]}
{"id": "C77", "title": "Memory grows like N log N and not with the number of solves", "statement": "The memory reported by dataSize, summed over the quadtree after a build and any positive number of solves, is 17 bytes per patch plus 8 bytes for each number of an explicit count; the count is at most (36 + 10/m) N h + (18 + 8/m) N for N cells in leaves of m x m cells and h levels, and is given in closed form on uniform meshes.", "quantifier": "all quadtrees, leaf sizes, loads, boundary data and numbers of solves for which the interface problems are well posed", "why_tests_cant": "No test looks at the size of the operators that stay in the tree; growth with the depth or with the number of time steps shows on large runs only.", "anchors": ["src/Patches/FiniteVolume/FiniteVolumePatch.cpp: dataSize", "src/HPSAlgorithm.hpp", "examples/elliptic-multiple/main.cpp"]}
{"id": "C78", "title": "The application object owns MPI for the life of the process", "statement": "One application object made at the beginning of main and destroyed at its end initialises MPI if nobody has and finalises it once; getInstance always refers to a live object and keeps the options set through it; objects may follow each other, and MPI initialised by the caller stays the caller's.", "quantifier": "all sequences of constructor, destructor, getInstance, option and log calls and of the caller's own MPI calls, with and without PETSc", "why_tests_cant": "The tests run one fixed order of construction and destruction, and errors at the end of a process are easily missed.", "anchors": ["src/EllipticForestApp.cpp", "src/GenericSingleton.hpp"]}
{"id": "C79", "title": "Two cells per leaf side are enough on a refined mesh", "statement": "With two or more cells per leaf side, constant boundary data without load give the constant on every mesh that the stages accept; no boundary value is lost on the way from a coarse side to a finer patch.", "quantifier": "all quadtrees, rectangles and coefficients with two by two cells per leaf", "why_tests_cant": "Tests and examples use many cells per side; with two the interpolation writes past the end of a row without leaving the matrix, so no check of bounds notices.", "anchors": ["src/SpecialMatrices.hpp: InterpolationMatrixCoarse2Fine", "src/HPSAlgorithm.hpp: uncoarsen_, split1to4"]}
{"id": "C80", "title": "Gathering puts every contribution in its place", "statement": "allgather and allgatherv return on every rank the contributions of all ranks at the given displacements and leave the rest of the receive buffer alone; gathering the counts first and then the data with summed displacements gives the concatenation in rank order, for scalars and for any contributions including empty ones; allreduce gives the same entrywise reduction on every rank.", "quantifier": "all numbers of ranks, contributions, receive buffers, counts and displacements", "why_tests_cant": "The only test prints the result on the number of ranks it is started with and never compares it; what an empty contribution does depends on the standard library.", "anchors": ["src/MPI.hpp: allreduce, allgather, allgatherv", "src/Vector.hpp: allgather, allgatherv", "test/mpi/mpi_allgatherv.cpp"]}
{"id": "C81", "title": "Distributed vectors and matrices hold what was set and are released once", "statement": "Rows are divided so that each has one owner; after assembly a distributed vector or matrix holds the values that the ranks have set, in every order of messages, in particular the serial vector or matrix it was made from; every PETSc vector is destroyed exactly once.", "quantifier": "all sizes, numbers of ranks, index lists, values, message orders and sequences of constructor, copy, assignment, create and destructor calls", "why_tests_cant": "The tests only print, with four entries per rank; the order of messages and the division of sizes that are no multiple of the number of ranks are not exercised.", "anchors": ["src/Vector.hpp: ParallelVector", "src/Matrix.hpp: ParallelMatrix", "src/Patches/FiniteVolume/FiniteVolumePatch.hpp"]}
{"id": "C82", "title": "Products in double arithmetic stay within a proved distance of the exact products", "statement": "In IEEE double arithmetic, whatever order of summation and fused operations BLAS uses, each finite entry of a matrix-vector product, a matrix-matrix product, a scalar product and of S g + w differs from the exact value by at most ((1+2^-53)^n - 1) times the sum of the sizes of its n nonzero products plus n(1+2^-53)^n 2^-1075; results are finite below an explicit bound, exact for data with few binary digits, and infinities and NaNs among the factors are not lost except against a factor zero.", "quantifier": "all matrices and vectors of doubles, all orders of summation, fused or not", "why_tests_cant": "Tests compare with one BLAS library on one machine and a tolerance chosen by hand.", "anchors": ["src/Matrix.hpp: operator*", "src/Vector.hpp: operator*, operator+", "src/HPSAlgorithm.hpp: applyS_"]}
{"id": "C83", "title": "Changes of resolution in double arithmetic are stable and keep constants", "statement": "In IEEE double arithmetic one pass between resolutions, in either direction, has an error of a few units in the last place of the largest entry, independent of the number of cells and of the order of summation; constants are kept exactly by averaging and by interpolation through all passes.", "quantifier": "all numbers of cells from three per side on, all data, all orders of summation, any number of passes", "why_tests_cant": "Tests of the interpolation compare with a tolerance; constants with few digits such as 1 are kept exactly, so that the loss for others does not show.", "anchors": ["src/SpecialMatrices.hpp: InterpolationMatrixFine2Coarse, InterpolationMatrixCoarse2Fine", "src/HPSAlgorithm.hpp: uncoarsen_, coarsenUpwards_"]}
{"id": "C84", "title": "The examples solve for sin x + sin y to second order", "statement": "For a real function with four bounded derivatives in x and in y, boundary data within eg and loads within ef of its own, the three stages on 2^l by 2^l leaves of m by m cells return values within eg + ef R + (hx^2 + hy^2)(M2/8 + M4 R/12) of the function. In particular elliptic-multiple and, on a uniform mesh, elliptic-single compute sin x + sin y to second order and print no larger error, whatever their beta function is, and patch-solver prints at most 17/(12 n^2), up to the error of the evaluation of the sines.", "quantifier": "every rectangle, leaf size, depth, function with four bounded derivatives, accuracy of the sine, any LAPACK, LU and FISHPACK meeting their contracts", "why_tests_cant": "The examples print errors for a few resolutions; a bound with explicit constants for all resolutions and rectangles needs the Taylor expansion of the solution and the discrete maximum principle.", "anchors": ["examples/elliptic-multiple/main.cpp: 54-100, 345-374", "examples/elliptic-single/main.cpp: 47-92", "examples/patch-solver/main.cpp: 29-42, 88-140", "src/HPSAlgorithm.hpp", "src/Patches/FiniteVolume/FiniteVolumeSolver.cpp"]}
{"id": "C85", "title": "Parallel runs with the five-point patch solver complete", "statement": "solve of the five-point solver creates two index sets with ISCreateGeneral on MPI_COMM_WORLD, a collective call, although a solve happens once per leaf of a rank. The parallel stages with this solver complete, in every order of collectives and with the serial data, whenever they do with a solver without such calls.", "quantifier": "all quadtrees, contiguous partitions, numbers of ranks, numbers of calls per leaf, schedules", "why_tests_cant": "The tests use FISHPACK, which makes no such calls (the thermal example and the default of the solver use the stencil); with one rank, and with uniform meshes on 4^k ranks, the calls happen to match.", "anchors": ["src/Patches/FiniteVolume/FiniteVolumeSolver.cpp: 199-200 ISCreateGeneral(MPI_COMM_WORLD, ...)", "src/Patches/FiniteVolume/FiniteVolumeSolver.cpp: 300-468 mapD2N, buildD2N, particularNeumannData", "src/HPSAlgorithm.hpp: 122-445, 593", "src/Quadtree.hpp: 438-511"]}
{"id": "C86", "title": "A solve with the five-point stencil releases what it creates", "statement": "Every PETSc object that a call of FiniteVolumeSolver::solve with the five-point stencil creates is destroyed before it returns; any number of solves leaves nothing behind.", "quantifier": "any number of solves", "why_tests_cant": "Objects left behind do not change results; only PETSc's own report at the end of a run or the growth of memory over many solves shows them.", "anchors": ["src/Patches/FiniteVolume/FiniteVolumeSolver.cpp: 41-60, 196-222"]}
{"id": "C87", "title": "The last occurrence of an option on the command line decides", "statement": "After parsing the command line every option has the value given by the last argument that mentions it; options that no argument mentions keep their values, and arguments that do not begin with a dash are ignored.", "quantifier": "every list of arguments", "why_tests_cant": "The number of argument lists, of repetitions and of forms of an argument is unbounded.", "anchors": ["src/InputParser.cpp: InputParser::parse", "src/EllipticForestApp.cpp: 24-25"]}
{"id": "C88", "title": "Switches given on the command line are read as truth values", "statement": "Reading a switch (cache-operators, homogeneous-rhs) as the algorithm does gives a truth value for every command line: the value given last, true for a switch without value, false for one that is not mentioned.", "quantifier": "every command line, every key", "why_tests_cant": "The examples set the switches themselves before the algorithm reads them, so the command line is never what is read.", "anchors": ["src/HPSAlgorithm.hpp: 134, 532, 587, 1202", "src/InputParser.cpp: InputParser::parse", "src/Options.cpp: operator[]"]}
{"id": "C89", "title": "Data of the wrong length are reported", "statement": "A solve whose boundary vector does not have one entry per boundary cell, or whose load does not have one entry per cell, ends with an exception; it neither returns a result nor has undefined behaviour.", "quantifier": "every mesh, every patch size, every boundary vector and load", "why_tests_cant": "Which entry is read first past the end, and hence whether the check of the index catches it, depends on the length, the patch size, the leaf and the patch solver.", "anchors": ["src/HPSAlgorithm.hpp: 178-216, 291-324, 1194-1230", "src/Patches/FiniteVolume/FiniteVolumeSolver.cpp: solve, mapD2N, particularNeumannData", "src/Vector.hpp: operator[], getSegment"]}
{"id": "C90", "title": "Stages called in the wrong order are reported", "statement": "Calling the upwards stage before the build, or the solve before the build or before the upwards stage, ends with an exception on every newly created mesh; no wrong result is returned and the behaviour is defined.", "quantifier": "every mesh, every boundary vector, every patch solver", "why_tests_cant": "The shipped programs call the stages in order; what happens otherwise depends on the mesh.", "anchors": ["src/HPSAlgorithm.hpp: 119-165, 178-216, 291-420", "src/Patches/FiniteVolume/FiniteVolumePatch.cpp: 14-17"]}
{"id": "C91", "title": "Moving or enlarging the domain does not change the answer", "statement": "Solving the moved equation on a domain that is enlarged by a factor s and moved, with the same boundary data and the loads of the moved equation, gives the same values in every leaf, and fluxes divided by s.", "quantifier": "every factor, displacement and mesh, coefficients varying in space, both patch solvers", "why_tests_cant": "Domain limits enter the stencils, fluxes and the mesh in many places; a test compares two domains on one mesh.", "anchors": ["src/Patches/FiniteVolume/FiniteVolumeGrid.cpp: 9-36", "src/Patches/FiniteVolume/FiniteVolumeSolver.cpp: 25-463", "src/HPSAlgorithm.hpp: 119-420"]}
{"id": "C92", "title": "Mirroring the domain mirrors the answer", "statement": "Solving the problem mirrored in x, or with x and y exchanged, gives in every leaf the mirrored values of the leaf it is the image of, and mirrored fluxes at the root. A problem that is its own mirror image has an answer that is its own mirror image.", "quantifier": "every mesh, load and boundary data, coefficients varying in space, both patch solvers", "why_tests_cant": "The four sides and the four children are handled by separate lines of code and a mistake in one of them shows only for data that is not symmetric.", "anchors": ["src/HPSAlgorithm.hpp: 119-1030", "src/Patches/FiniteVolume/FiniteVolumeSolver.cpp: 25-463"]}
{"id": "C93", "title": "The thermal example on several ranks takes the steps of backward Euler", "statement": "On a partition where the five-point solver can run (every rank has equally many leaves, and a quadrant with leaves of several ranks has all leaves of each of these ranks), the thermal example ends whatever order the collective calls come in. After iteration n the leaves of every rank hold the state after n + 1 steps of backward Euler from zero, the first step without source. On uniform meshes this holds always; on meshes refined in places it holds when the merges and the boundary system are nonsingular.", "quantifier": "every number of ranks, partition and number of iterations, every uniform mesh and every mesh refined in places, every boundary data, source and positive conductivity", "why_tests_cant": "The state passes from one iteration to the next through node maps that are spread over the ranks; a test runs one partition and one order of messages.", "anchors": ["examples/thermal/main.cpp: 233-355", "src/HPSAlgorithm.hpp: 119-460", "src/Quadtree.hpp: 150-560"]}
