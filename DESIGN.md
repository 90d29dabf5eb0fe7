# Formal model of EllipticForest

Everything lives in `rocq/theories` (logical prefix `Verif`).  The C++ source in
`/repo` is read as text; it is neither compiled nor run.

## Trusted base

* The Coq kernel (8.16.1).
* The axioms printed by `Print Assumptions` for each theorem.  Each `Thm*.v`
  file has `Print Assumptions` under every theorem it states.  All but those
  of `ThmFloat.v` and `ThmFNorm.v` print "Closed under the global context"; see "Axioms actually
  used".
* The reading of the C++ code recorded in the comments of the model files.
  Every definition cites file and lines.

### Modelled

* `Vector.hpp`, `Matrix.hpp` (dense containers), `SpecialMatrices.hpp`.
* `HPSAlgorithm.hpp`: build, upwards and solve stages, all helper routines.
* `Patch.hpp`, `Patches/FiniteVolume/*`: grid, patch, node factory, patch
  solver (five-point branch assembled entry by entry; FISHPACK branch through
  its contract).
* `Quadtree.hpp`, `QuadNode.hpp`, `P4est.cpp`: construction, traversals,
  ownership, collectives of merge/split.
* `Mesh.hpp`: refinement criterion, exported arrays, mesh functions.
* `Options.*`, `InputParser.cpp`, `DataCache.hpp`, `Interpolation.*`,
  `XMLTree.*`, `VTK.cpp`, `MPI.*`, `Timer.cpp`, `EllipticForestApp.*`
  (option/timer part), ownership part of `ParallelMatrix`.

### Not modelled / idealised

* Floating point.  `double` is exact rational arithmetic (`Qc`), except in
  `FloatModel.v` (C71), where the bounds of the nodes and the cell centres are
  computed in binary64, `FNormModel.v` (C72), where the norms are, and
  `FProdModel.v` (C82, C83), where products and changes of resolution are.  Elsewhere rounding, NaN, infinities and overflow are
  outside the model.  Structural operations
  (transpose, blocks, segments, permutation) are polymorphic in the element
  type, so for those the claim also covers floating point data.
* `size_t` is `nat` in the numerical core.  Where wrap-around matters
  (`getSegment`, `setSegment`, `getBlock`, `setBlock`) a second, faithful
  definition over `N` with arithmetic modulo 2^64 is given and related to the
  first.
* BLAS, LAPACK, PETSc, FISHPACK, p4est, MPI are external.  BLAS routines are
  given their documented semantics explicitly.  `dgesv`, the PETSc solve and
  FISHPACK's `hstcrt` are parameters with a stated contract; the contract of
  `dgesv` is shown satisfiable by an executable Gaussian elimination.
  p4est's search order, balancing and partitioning are modelled by the
  documented behaviour (Morton order, contiguous partition).
* Memory exhaustion, logging, wall-clock values, plots.
* The `DTN_OPTIMIZE` variant of `buildD2N` is compiled by no build
  configuration in the repository.  It is modelled (`DtnModel.v`) for C68 only;
  all other claims use the branch that is compiled.

### Assumptions by area

Numerical core (`VectorModel`, `MatrixModel`, `InPlaceModel`, `HPSModel`)

* `dgemv`, `dgemm` have their documented meaning; an illegal leading dimension
  stops the program.  `dgesv` is a parameter `gesv`; theorems assume that it
  solves every regular system (`gesv_ok`), which Gaussian elimination
  (`Gauss.v`) is shown to do.
* The four children handed to a family callback are different objects.

Finite volumes (`FVModel`)

* `VecSetValue` with `INSERT_VALUES` followed by `ADD_VALUES` on the same entry
  gives the sum (PETSc wants an assembly in between).
* The LU solve is a parameter that returns the solution if there is exactly
  one.  `hstcrt` is a parameter that solves the system of its documentation.
* Coefficient functions are total and have no side effects.

Trees and parallel execution (`TreeModel`, `ParModel`, `ObjModel`)

* One tree per forest; every rank owns a contiguous range of leaves in Morton
  order (ranks may be empty).
* `p4est_search_all` and `p4est_search_reorder` visit what the definitions
  `search_all` and `search_reorder` say.
* The first and last rank of a quadrant passed to callbacks own leaves of it.
* A missing key and a null pointer in the map of nodes are the same.
* Callbacks reach only the nodes they are given and start no traversal.
* Collectives synchronise all members of the communicator.  A broadcast
  delivers the node; that the C++ encoding of it is undefined for empty
  vectors and new nodes is the subject of C52, not of C37 and C59.
* Naming `MPI_COMM_NULL` (MPI.cpp:33) is harmless, except in C74.  The barriers in
  HPSAlgorithm.hpp:122, 180, 227, 345 are left out.
* Quadtree objects are moved and destroyed only between traversals.

Mesh (`MeshModel`)

* `p4est_new_ext`, `p4est_refine`, `p4est_balance`, `p4est_partition` by the
  contracts in `MeshModel.v` and `MeshSpec.v`; counters of type int do not
  overflow.

Files (`XmlModel`)

* Texts are byte strings.  The reader is a grammar of the ASCII part of XML 1.0
  without references, comments, CDATA sections and empty-element tags.
* Addresses of destroyed objects are not used again.  Recursion is limited by a
  parameter.  Files can always be opened.
* `printf` conversions other than `%04i` and `%%` are undefined.

Options (`OptModel`)

* C locale, signed `char`; assigning `""` to the variant stores a string
  (C++20); decimal numbers are not rounded; numbers too small for a normal
  double, infinities and hexadecimal numbers are not modelled further.
* `options[k] = f(...)` evaluates the right-hand side first.

Interpolation (`InterpModel`): exact numbers, unbounded ints, the table may
change between calls if its length stays.

Messages (`WireModel`): messages with the same tag arrive in order; a count
larger than the buffer, an element of another type and unequal counts of a
broadcast are undefined.  A flag says whether touching an empty vector's first
element is undefined (C++ standard) or harmless (usual implementations).

Memory (`MemModel`): dataSize is computed in exact rationals (every term is a
whole number of bytes over 2^20, so doubles agree below 2^53 bytes); wrap-around of
std::size_t, the allocator and v_serial, which is never assigned, are left out; one
rank.

Application object (`LifeModel`): one thread, options are one value, MPI has the
phases of the standard and misuse is undefined, PETSc calls succeed.

Collectives (`GatherModel`): the calls of all ranks are one operation; counts that
do not match, blocks outside of the buffer and elements written twice are
undefined, as in the MPI standard; the assertion of allreduce is off.

Distributed vectors (`DVecModel`): PETSc divides rows as PETSC_DECIDE does, inserts
own entries at once and keeps the others for one message per owner at
assembly, and the order of the messages is arbitrary; rows of matrices are full;
ADD_VALUES, getValues and types are not modelled.

Products of doubles (`FProdModel`): BLAS fixes neither the order of summation nor
whether operations are fused, so a product is a relation: any binary tree of
additions over any permutation of the products, each product rounded or fused with
the sum it is added to, products with a factor zero possibly left out. Rounding is
to nearest even. Extended precision, blocking that rescales, and DGESV are outside.
The literals of the interpolation matrices are exact binary fractions. The
theorems for C82, C83 and C84 use the axioms of the standard library's real numbers.

Collective calls in leaf solves (`WorldModel`): the five-point solver creates index
sets on MPI_COMM_WORLD. Assumed about PETSc: ISCreateGeneral returns on no rank
before all ranks of its communicator have called it, and an object is held until it
is destroyed. The calls of a leaf come before its local work. C37 and C59 assume a
patch solver without such calls.

Misuse (`MisuseSpec`): no new model.  The stages of `HPSModel` and the patch
solvers of `FVModel` are run on trees of patches as the constructor leaves them,
and on vectors of any length.  Reads past the end follow `Vector::operator[]`,
which lets the index equal to the size through; that read is undefined behaviour.

Moved domains (`ScaleSpec`): no new model.  A quadtree is moved by moving the
limits of its leaf grids; moved coefficients are any coefficients that agree with
the given ones at corresponding points, up to the factors of the chain rule.

Mirrored domains (`MirrorSpec`): no new model.  The image of a quadtree has the
image of every leaf grid and the children in the order of their images; fluxes in x
change sign under x to -x because the model, like the code, takes fluxes in the
positive directions.

The thermal example on several ranks (`ThermParModel`): the stages of each
iteration as stages on the node map of a rank, with the number of collective calls
of the five-point patch solver per leaf as in `WorldModel`.  The load callback and
the boundary callback are those of `ThermalModel`.  The barriers inside the stages,
the options, the refinement of the mesh and the output are left out.

Resources (`ResModel`): only nodes and communicators are counted; the memory
of data inside the nodes, of p4est and of the factory is not.

Aliasing (`AliasModel`): a scalar argument is either an object outside the
vector or one of its entries.

Timers (`TimerModel`): the clock is the sequence of values read, times are
not rounded.

Parallel matrices (`PMatModel`), with the constructors of ParallelIdentityMatrix: only ownership; PETSc calls succeed.

## Axioms actually used

The theorems of `ThmFloat.v` (C71), `ThmFNorm.v` (C72), `ThmFProd.v` (C82, C83) and `ThmReal.v` (C84) speak about real numbers and use axioms of
the standard library, through its real numbers and the Flocq library, which
adds none:

* `ClassicalDedekindReals.sig_not_dec`, `ClassicalDedekindReals.sig_forall_dec`
* `FunctionalExtensionality.functional_extensionality_dep`
* `Classical_Prop.classic`

All other theorems use no axiom.  `coqchk` also lists constants of
`Coq.ssr.ssrunder` and of `RbaseSymbolsImpl` and `RinvImpl` in
`Coq.Reals.Rdefinitions`, because files of the standard library that use them are
loaded.  They are parameters of module types there, given by definitions, and
`Print Assumptions` shows that no theorem depends on them as axioms.

## Files and tools

* `XProps.v` holds the proofs of the property theorems as lemmas `NAME_pf` and
  of the concrete cases as `NAME_expf`.  `tools/gen_thm.py` writes `ThmX.v`
  from it: the same statements as `Theorem NAME` and `Example NAME`, closed by
  `exact`.
* `tools/manifest.py` writes `MANIFEST.json` from the comments of the theorems
  (property id in brackets) and `tools/notes.py`.
* `tools/all.sh` does both and builds.
* `seeded/LOG.jsonl` records wrong programs tried against the theorems.

## Conventions

* Result of a call: `res A := Ok a | Throw e | UB`.  `Throw` is a C++
  exception, `UB` is undefined behaviour (out-of-bounds access of a
  `std::vector`, dereferencing null, dangling reference).
* Loops that fill a fresh object are modelled by building the object in loop
  order; loops that update in place are folds.
* Model files: `*Model.v`.  Specifications: `*Spec.v` (no reference to helper
  functions of the model).  Proofs: `*Proofs.v`.  Property theorems:
  `Thm*.v`; each is closed by `exact` of a lemma and accompanied by an
  `Example` that meets its hypotheses.
* A property that is false of the code gets a theorem `..._refuted` with a
  witness and a `..._partial` theorem with the largest condition under which
  we could prove it.  In `MANIFEST.json` it is listed as `partial` and the note
  says that it is false as stated.

## Per property plan

| id | what is modelled | how it is proved |
|----|------------------|------------------|
| C01 | `Matrix::T`, element access | entrywise extensionality of row-major storage |
| C02 | `getBlock`/`setBlock` in nat and modulo 2^64 | fold invariant; refutation: wrapped bound check |
| C03 | `getFromIndexSet` incl. missing throw | entrywise; refutation: index = number of columns |
| C04 | `blockPermute` with its index lists | index list is a permutation of 0..n-1; block lookup by prefix sums |
| C05 | `concatenate`, segments in nat and modulo 2^64 | list algebra; refutation by wrap |
| C06 | C04 and vector `blockPermute` and products | sum over a permuted index set |
| C07 | `dgemv`/`dgemm` column-major semantics with flags | flat index algebra |
| C08 | `solve` via `dgesv` contract | A X = B from contract; refutation: INFO only logged |
| C09 | accessors | case analysis; refutation at index = size |
| C10 | `getRange` | refuted; partial: entries equal to their index |
| C11 | rows and columns | `getCol` refuted for non-square; partial for square, the other three in full |
| C12 | operators | entrywise; `*=` on matrices refuted |
| C13 | interpolation matrix built by its loops | row by row; refuted for 4 fine cells; proved for even sizes >= 6 |
| C14 | averaging matrix | sum splitting |
| C15 | `blockDiagonalMatrix` | induction on the list |
| C16-C19 | merge, upwards, split with all index sets | block algebra on 4n vectors, then permutation law C06 |
| C20 | stages on an inductive quadtree with coarsening | induction on the tree against a declarative glued problem |
| C21 | stages as state transformers | invariant: operators fixed, per-solve data overwritten |
| C22 | build stage run twice | refuted on adaptive tree (counter not reset); proved when no coarsening happens |
| C23 | cache | refuted, also for Laplace on a refined mesh; proved when all leaves share one operator, so for constant coefficients on equal leaves |
| C24 | coarsening counters and sizes | size invariant by tree induction; leaf sizes n = 2 and 4 fall into the broken interpolation |
| C25 | Robin solve at root | from C08 contract |
| C26 | homogeneous flag | refuted for refined trees with boundary function; equality for the callback version |
| C27 | assembled rows | case analysis on nine cases against ghost-cell stencil |
| C28 | mapD2N/buildD2N | linearity of solve from uniqueness |
| C29 | mapD2N | direct; linear exactness from uniqueness of the discrete solution |
| C30 | FISHPACK contract | same stencil, uniqueness; refuted for variable coefficients |
| C31 | nx <> ny | refuted; partial for nx = ny |
| C32 | grids of nodes | induction on tree over rationals |
| C33 | node factory | direct computation |
| C34 | p4est path | arithmetic on coordinates |
| C35 | traversals | induction, lists of visited nodes |
| C36 | map versions of merge/split | refinement with path disjointness |
| C37 | ranks as processes with collective steps | progress and confluence over arbitrary schedules |
| C38 | Allreduce MAX choice | needs contiguous ranges |
| C39 | constructor | induction over the search |
| C40 | user pointer state machine | refuted; partial for histories that start with pre-order |
| C41 | refine callback | well-founded recursion bounded by max level |
| C42 | mesh arrays | refuted (offsets/types); partial for points and connectivity |
| C43 | mesh arrays appended | refuted; partial for first refinement |
| C44 | loops over cells | list equality |
| C45 | XML writer | parser and round trip for markup-free text; refuted in general |
| C46 | VTK writers | refuted (children pointers to dead locals); partial for one call |
| C47 | parallel VTK names | equality of name lists for names without format characters |
| C48 | `checkValue` | refuted for strings and negative integers; partial: classification |
| C49 | INI reader | fold over lines |
| C50 | option map, cache | refuted for operator[]; partial for other sequences |
| C51 | interpolant with search state | bracket invariant |
| C52 | wire encodings | round trip; refuted for empty vectors and longer strings |
| C53 | timers | fold; refuted for stage timers reset by addTimer |
| C54 | ParallelMatrix ownership | refuted; partial for move-only histories |
| C55 | stages | linearity via C20 uniqueness or directly by induction |
| C56 | stages, restriction of C20 | as C20; leaf side >= 3 keeps clear of the broken interpolation matrix |
| C57 | five-point matrix | discrete maximum principle |
| C58 | stages on uniform trees with the finite volume solver | the glued problem of C56 is the global five-point problem, unique by C57 |
| C59 | all stages as one program per rank | simulation of the serial run, every order of collectives |
| C60 | stages on trees of any shape with the finite volume solver | plane sampled on leaves is a glued solution (interpolation and averaging keep lines), unique by C56 |
| C61 | stages on trees of any shape | induction over the tree; averaging keeps the integral of a flux |
| C62 | vectorInfNorm, matrixInfNorm, vectorL2Norm | loop invariant: running maximum |
| C63 | discrete solutions, stages on uniform trees | maximum principle for the difference of two solutions |
| C64 | discrete solutions, stages on uniform trees | comparison with V plus a parabola |
| C65 | upwardsStage and solveStage from functions, uniform trees | strong maximum principle for the boundary system |
| C66 | operator*, IdentityMatrix, DiagonalMatrix, getFromIndexSet of vectors | list recursion against the loops |
| C67 | `T` at the root after buildStage; Green's identity | summation by parts, comparison principle (C63), exactness (C58) |
| C68 | `buildD2N` with `DTN_OPTIMIZE` against the compiled branch | reflections of solutions, reciprocity of the fluxes (C67), refutation by computation |
| C69 | the loop of `examples/thermal/main.cpp` | heat step defined from the cell equations, induction over the iterations with C64/C65 at each, maximum principle in time, refutation by computation; on meshes refined in places the same induction with C65 and gluing (`ThermalAdapt`); the concrete refined case by elimination modulo a number (`ModCert`, `BoundaryCert`) |
| C70 | the error reports of `examples/elliptic-multiple` and `examples/patch-solver` | sums over all cells, Cauchy-Schwarz, areas of tilings, C64 bound, refutation by computation |
| C71 | bounds of nodes and cell centres in binary64 | rounding is monotone and keeps representable numbers; error bounds by induction over the path; exactness by counting digits |
| C72 | the norms of differences in binary64 | maximum of rounded differences is the rounded maximum; invariant of the loop; refutation with NaN |
| C73 | in-place operators with references into the vector, copies, constructor from data | invariant of the loop with the aliased entry; refutations by computation |
| C74 | nodes and communicators allocated by constructor, merge and split | counting by induction over the tree; programs by induction |
| C75 | the interface equations of the five-point solver on uniform and refined trees | C58 for uniform trees; refutation: a checker for solutions of the glued problem, proved sound, run on exact rational values |
| C76 | beta-weighted fluxes at the root and sources | telescoping sums on the global problem of C58; refutation with the same checker |
| C77 | dataSize summed over the tree after a build and any number of solves (MemModel.v) | shapes of all matrices and vectors of every patch by induction over the stages, frame lemmas for what each stage leaves alone, counting by induction over the tree |
| C78 | constructor, destructor and getInstance of the application object as a state machine (LifeModel.v) | induction over programs; refutations by computation |
| C79 | the interpolation and the stages on leaves of two by two cells | refutation by computation on seven leaves; the lost values for all data from the rows of the interpolation |
| C80 | allreduce, allgather and allgatherv on all ranks, and the program of the test (GatherModel.v) | invariant over the blocks written; concatenation by offsets; refutations for empty and scalar contributions |
| C81 | setValues and assembly of ParallelVector and ParallelMatrix; life of ParallelVector objects (DVecModel.v) | writes as lists of entries that agree with a function; life by simulation in the machine of C54 |
| C82 | products of matrices and vectors of doubles as a relation over all orders of summation (FProdModel.v) | induction over the relation with Flocq's rounding errors; exactness from representable partial sums |
| C83 | the interpolation matrices of doubles and the passes of uncoarsen_ and coarsenUpwards_ (FProdModel.v) | the matrices represent the rational ones entry by entry; rows of two or three weights; refutation by computation in one order |
| C84 | the three stages and the reports of C58/C70, against real functions (RealSpec.v) | mean value theorem four times for the second differences; rational approximations of the function inside the residual bound of C64; limit over the accuracy of the approximation |
| C85 | the stages of ParModel with collective calls over all ranks inside every leaf visit (WorldModel.v) | counting calls per rank along any run; peeling all calls to the front of a merge and to the end of a split for aligned partitions, up to extensional equality of programs |
| C86 | sequence of creations and destructions in one solve (WorldModel.v) | induction over the number of solves |
| C87 | `parse`, one argument (OptModel.v) | induction over the arguments; an argument does the same to every map |
| C88 | `parse`, `get_bool` (OptModel.v) | what one argument does to one key; refuted for switches without value |
| C89 | patch solvers (FVModel.v), stages (HPSModel.v) | first bad read in loop order; sizes of the operators; refuted on a single leaf |
| C90 | stages on trees of new patches (HPSModel.v, MisuseSpec.v) | induction over the tree; sizes of the operators; refuted on a single leaf |
| C91 | stages (HPSModel.v), moved trees (ScaleSpec.v) | every leaf problem is the moved one with fluxes divided by s; uniqueness of the glued solution |
| C92 | stages (HPSModel.v), mirrored trees (MirrorSpec.v) | refining, averaging, splitting and joining of sides commute with the symmetry; every leaf problem is the mirrored one; uniqueness of the glued solution |
| C93 | stages of `examples/thermal/main.cpp` on the node maps of several ranks (ThermParModel.v) | the stages on one rank are the recursions of C69 (`merge_single`, `split_single`, by induction over the iterations); parallel run equals serial run by C85; the constructed tree is the mesh of the forest |
