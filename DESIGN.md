# Formal model of SeismicMesh in Rocq (Coq 8.16.1)

The properties are listed in `properties.jsonl` (C01 ...).  The Coq project is in
`rocq/` (`-Q theories Verif`).

## Layout

* `theories/Model/*.v` – executable-style Gallina transcriptions of the Python/C++ functions.
  Every definition has a comment with the file and lines in /repo and the simplifications made.
  No proofs (other than what is needed to be accepted by Coq).
* `theories/Spec/*.v`  – small, model-independent specifications.
* `theories/Proofs/*.v` – lemmas.
* `theories/Props/*.v` – the property theorems, each closed with `exact lemma`, with `Print Assumptions`
  beneath it and an `Example` showing that a concrete non-trivial case meets the hypotheses.

## How things are modelled

* **Integers and index tables**: `nat`/`Z` and lists. C `int` overflow is not modelled, except that
  C06 proves the double division/ceil exact for indices below 2^31 and `Int32.v` (C112) checks every int operation of the limiter.
* **Real arithmetic**: Coq's `R` in place of binary64, except for: the gradient limiter and the rectangle /
  cube signed distance, which take a rounding operator `rnd : R -> R` as parameter and
  are proved for every monotone rounding (the identity and Flocq's binary64 round-to-nearest
  are instances).  NaN is represented by `option R`/an explicit value where the property is about it.
* **numpy**: `unique`, `argsort` (unstable), `bincount`, `pad`, `arange`, `linspace`... are written out as
  list functions; `np.unique` on byte views enumerates rows in an arbitrary total order, which is
  a parameter; the unstable `argsort` is any sorting permutation (universally quantified).
* **Exceptions**: `result A := Ok a | Err kind`.
* **Mutation through aliases** (C13, C32): functions return the new value of the caller's array.
* **CGAL, pyamg**: oracles (Section variables / function arguments) with the assumed behaviour spelled out in the theorem's
  hypotheses.  `scipy.interpolate.RegularGridInterpolator` and `scipy.ndimage.uniform_filter` are written out (`Interp.v`, `UFilter.v`).
* **MPI**: a small-step semantics (`MPI.v` for fixed lists of operations, `Process.v` for programs whose messages depend on what was
  received).  A send is either buffered or completes together with its receive, message by message, as the library decides; a receive
  names its source and tag (11, 12, 13 as in the code) and takes the earliest matching message.  Collectives (bcast, allreduce, Reduce)
  are written as sends and receives under a tag of their own.  Killed processes and the loss of their last messages are modelled in `Crash.v` (C113 only); other losses are not, except that a
  process that raises an exception stops (C91).
* **Loops**: structural recursion/fuel; fuel exhaustion is a distinguished outcome.

## Plan by property

| Id | Model | Proof |
|---|---|---|
| C01-C05 | `Model/FastHJ.v`: `limgrad` with rounding parameter | invariant by induction over sweeps and stencil updates; potential argument for termination; chain witness for the cap |
| C06 | `Model/FastHJ.v`: `sub2ind`, `ind2sub` (Z), plane index through Flocq binary64 division | arithmetic; Flocq exactness lemma |
| C07-C13, C16, C18 | `Model/Sizing.v` (pipeline over R, arrays as functions/lists) | composition of per-step bounds; concrete witnesses |
| C14, C15 | `Model/Sizing.v`: `pad_it`, `get_vectors` | list lemmas; real arithmetic |
| C17 | `Model/ReadBin.v` | permutation/bijection by case analysis on the six orders and mixed radix arithmetic |
| C19, C75 | `Model/Options.v` | induction on key lists |
| C20-C32 | `Model/SDF.v` | real analysis (nra, Cauchy-Schwarz), folds over operand lists, rotation matrices; witnesses |
| C33-C35 | `Model/Mesh.v` | list lemmas about `unique` |
| C36-C42 | `Model/Mesh.v` | counting arguments, handshake/parity, degree-2 trail |
| C43-C48, C76 | `Model/Simplex.v`, `Model/Formulas.v` | `ring`, `nra`, Cramer's rule, derivative lemma (C47) |
| C49 | `Model/Formulas.v` | set reasoning |
| C50 | `Model/Formulas.v` | list lengths and broadcasting |
| C51 | `Model/Mesh.v` | filter lemmas |
| C52-C54 | `Model/Laplace.v` | convexity, maximum principle |
| C55 | `Model/Dihedral.v` | characterisation of the list |
| C56-C57 | `Model/MPI.v`, `Model/Migration.v` | progress measure and simulation for any schedule and number of ranks; stuck-state witness |
| C58 | `Model/Migration.v` | prefix sums |
| C59-C61 | `Model/WhereTo.v` | list lemmas; size arithmetic; witness |
| C62-C64 | `Model/Blocker.v` | interval covering; witness |
| C65-C67 | `Model/InitGrid.v` | arithmetic on integer multiples of h0, floor/ceil |
| C68, C69, C73 | `Model/Generator.v` with CGAL and point motion as oracles | loop invariants |
| C70 | `Model/Forces.v` | sums |
| C71, C72 | `Model/Generator.v` | real arithmetic |
| C74, C81, C82 | `Model/Triang.v` | invariant over operation histories; counting |
| C77 | `Model/Migration.v`, `Model/Parallel.v` | list positions |
| C78 | `Model/Blocker.v` with the rounding of binary64 | Flocq; explicit points |
| C79, C80 | `Model/Blocker.v`, `Model/Localize.v` as rank programs | progress, stuck states |
| C83, C84 | `Model/Interp.v` (RegularGridInterpolator written out) | convex combinations; slopes along a grid line |
| C85, C86 | `Model/Generator.v`, `Model/Forces.v` | filter lemmas; invariant over iterations |
| C87 | `Model/VelocityIO.v` | list positions |
| C88 | `Model/Process.v`: a rank is a tree of sends, receives and results | diamond lemma: sends and receives of different ranks commute; confluence |
| C89 | `Model/Parallel.v` against the lock-step `Spec/Lockstep.v` | choreographies: a global list of messages of which every rank plays its part |
| C90 | the same with `Model/Blocker.v` | extents of the blocks are disjoint |
| C91 | the same | starvation invariant: a rank needs more messages than will ever be sent |
| C92 | `geometry.linter` as a loop over cells, corners and a fixed number of rounds | invariants over the rounds: kept cells are cells of the input, boundary corners cleaned |
| C93 | the same as C91, last iteration | prefix run in lock step (reach), then counting messages: starvation of one rank, of a chain, of a pair |
| C94 | `Model/UFilter.v`: scipy's uniform_filter (moving averages, reflection) under `Sizing.v` | variance of window means: zero iff constant in the windows; induction over axes |
| C95 | `Model/Sizing.v`, `Interp.v` with `UFilter.v` | every stage total: succeeds iff its condition holds; composition |
| C96 | `Model/SizingRanks.v` (per-rank programs over `Process.v`) | choreography of the broadcast; starvation when rank 0 raises |
| C97 | `Model/Snap.v`: snapping in binary64 (Flocq) under `Mesh.v` | error bounds of the quotient and product; doubles are multiples of 2^-1074, so bytes decide equality |
| C98 | `Model/Round.v`: `_ddisk` and `dball` with every operation rounded (Flocq) | forward error analysis, one rounding at a time; monotonicity of rounding for the counterexample |
| C99 | `Model/Sizing.v`, `Spec/Coarser.v` (order on options and velocities) | every stage is monotone; grading by the envelopes of C02/C03; a two-sample run for the counterexample |
| C100 | simp_vol and the flip of fix_mesh with every operation rounded (Model/Orient.v); forward error bounds for 2D and 3D volumes from Flocq's relative error of sums of doubles; a thin clockwise triangle that survives as the refuted part |
| C101 | the loop of sliver_removal (Model/Generator.v) unfolded into a history of rounds by induction on the fuel; the gradient of calc_circumsphere_grad factored as a multiple of the radius vector; sums of steps for the reach; a kite with its centre in a face for the undefined direction |
| C102 | the list of fixed points computed by prepare (Model/Generator.v) against the values of the domain at the corners; set operations through the min/max lemmas of C23, rotated and padded rectangles by computing boxes and distances; a cut-off corner as witness |
| C103 | generate_mesh (Model/Generator.v) run on a size and on its multiple: the scale factor of the forces absorbs the constant (powers and roots), the rejection probabilities are quotients, then induction over the iterations; r0m_is_h0 refuted on a six-point grid |
| C104 | get_sizing (Model/Sizing.v with Model/UFilter.v) run in two units: every stage, including each relaxation of the limiter and its tolerance, commutes with multiplication by a constant; water and the constant 99999 as witnesses |
| C105 | get_sizing on an array and on its reversal along x and/or y (Spec/Mirror.v): every stage commutes with reversal (moving averages with odd windows by reversing the sum, np.pad by case analysis), grading by the lower envelope and the graded paths; the default window as counterexample |
| C106 | unit of length of generate_mesh / sliver_removal: `Spec/Scale.v` (scaled inputs, scaled libraries, `calm` run), `Proofs/ScaleProofs.v` (every step commutes with scaling), `Props/P42_scale.v`; the Newton floor is shown to break it |
| C107 | calls with Python values (`Model/Calls.v`: keyword lists, defaults, type tests, translation into `Generator.v`); ignored keywords by showing that every reader is invariant (`Proofs/CallProofs.v`); a spindle-shaped tetrahedron (angles above 30 and one above 173 degrees) refutes the documented default of max_dh_angle_bound |
| C108 | `Model/InitGrid64.v`: np.mgrid in binary64 (length ceil of the rounded quotient, nodes rounded twice, shifted rows three times); forward errors from `err64`; exactness for multiples of a power of two because a quotient of integers below 2^52 cannot be rounded across an integer |
| C109 | `Model/SizingFloat.v`: the sizing pipeline with every operation rounded to float32 or float64 as numpy does; bounds by monotonicity of rounding (limits are met exactly by clamping), Courant and wavelength by relative errors; concrete binary values for the refuted lower bounds |
| C110 | `layers_f` of `Model/SizingFloat.v`: relative error of the two rounded divisions against `int`; the 110-row case computed bit by bit |
| C111 | `finish` of `Model/Generator.v`: the linter runs before `improve_level_set`; `improve_loop_spec` says which vertices stay; two complete runs on the square of side 60 (quality, overlap, Newton steps computed) for the refuted halves |
| C112 | `Model/Int32.v`: the limiter with every int operation checked; bounds of the partial products by nia; 2^31 - 1 is prime (trial division by vm_compute), so only a line has that many nodes |
| C113 | `Model/Crash.v`: a process may be killed at any step, losing a final part of its undelivered messages | simulation by a crash-free run with the same programs; completion of that run; the last action of every rank other than 0 is a send to rank 0 |
| C114 | `Model/Generator.v` (termination, finish), `Spec/Origin.v` | composition of the guarantees of fix_mesh along the last stage; C54 for the smoothing |
| C115 | Spec/Renumber.v says what it is for one cell array to be another under new vertex numbers, row order and corner order; each utility is characterised (C33, C38, C40, C42) by statements that do not mention the numbers, and the characterisations are transported along the renumbering (RenumberProofs.v); the 3D failure is one tetrahedron listed in two corner orders |
| C116 | `Model/Parallel.v` (localize_sizing_p, sizing_in), `Model/InitGrid.v` (sizing_vectors), `Model/Interp.v` | the array sent is read at its C-order index (C79), so the interpolant takes the user's value at nodes; inside a cell it is a convex combination of the corners, all within h0 of the point; initial points lie in the covered region (C67) |
| C117 | Spec/GhostBox.v on top of the exports of C89/C59 and the circumscribed-ball test of C61 | a vertex of a neighbour in the box is a corner of a cell whose circle meets the box, so C61_complete selects it; `from_above`, `from_below` trace it to `incoming`; the Delaunay corollaries follow; two-triangle witness for the failing region |
| C118 | `Model/SizingCall.v`: the whole call, with the source of the velocities, None counts, numpy broadcasting, indexing of short boxes and the tuple test; spec (array_ok, box_fits, varying, regraded, stretchable) in P53 | the stages of the call are related to those of `Model/Sizing.v` (`Proofs/SizingCallProofs.v`); a different nz is a different grade because gradation uses only the product grade * elen |
| C119 | existing `Model/SDF.v`, `Model/Generator.v`; Spec/Solids.v: inductive family of nested domains, slope, segments, convex combinations | induction on the family; smooth minimum as min over t of ta+(1-t)b-kt(1-t), cylinder as a maximum of unit linear functions, rotations as isometries, stretch as a contraction, folding as the distance to the nearest multiple; intermediate value theorem; C69 for the mesh |
| C120 | `Model/Laplace.v` (laplacian2, fixed_point system); `Spec/Energy.v` (energy, movement, signed area, coherent) | per coordinate: the edge form equals a sum over vertices weighted by links, a Jacobi sweep drops it by Σ(ra+rb)² ≥ Σr²; orthogonality for the direct solution; interior directed sides cancel for the area; dart counterexample |
| C121 | Model/Generator.v (`generate_mesh`, `sliver_removal`), Model/SDF.v; Spec/Translate.v (moved inputs, libraries that move along) | every step of the loop commutes with the move (Proofs/TranslateProofs.v), with an invariant that points keep their dimension and cells their corners; `translate` on rectangles and cubes refuted by the corners that stay |
| C122 | `Model/Plot.v`: `plot_sizing_function`, `show` (what is handed to matplotlib, and where the figure goes) | membership in the sampled rows; C83 for the range of the sizes |
| C123 | `Model/Laplace.v`; `Spec/Smooth.v` (`within`, `balanced`, `apart_at_most`) | one averaging step is a max-norm non-expansion towards a balanced mesh and improves the bound by a factor at each layer from the held vertices; blocks of n sweeps contract; with tol <= 0 a boundary edge keeps its length so the test never stops the loop; counterexample mesh from C53 |
| C124 | `Model/Laplace.v`; `Spec/Affine.v` (affine maps, isometries) | a sweep commutes with affine maps; edge lengths and nearest vertices are kept by isometries, so the stopping test and the held vertices are the same; rows of the system add up to 0; counterexample mesh for stretches |
| C125 | `Model/Laplace.v`; `Spec/Renumber.v` (`permutes`, `relabelled`) | sums over neighbours are sums weighted by numbers of common triangles, which a renumbering keeps; the largest relative change of an edge is the same because the sets of changes are; counterexample with a tie |
| C126 | laplacian2 and laplacian2_fixed_point over array shapes (Model/Smooth3.v), get_boundary_edges/is_manifold with dim=3 (Model/Mesh.v) | case analysis on the outcome; counting of the six edges of a tetrahedron (Proofs/TetEdges.v); computed counterexamples |
| C127 | `Model/Laplace64.v`: laplacian2 with rnd64 after every operation, any order of summation | recursion of the summation error (Proofs/Laplace64Proofs.v), exact sweeps do not enlarge differences, monotonicity of rounding for the squared distances; witness evaluated through round-to-nearest-even on integers |
| C128 | `Model/Quality64.v`: simp_qual with rnd64 after every operation and the two places that compare qualities | calculus of relative (near) and one-sided (upto) rounding errors, Proofs/Quality64Proofs.v; witnesses (thin triangle without a quality, quality above 1) evaluated through round-to-nearest |
| C129 | `Model/Solid64.v`: Torus, Prism, Cylinder with rnd64 after every operation | the error of a computed length is that of a disk distance (C98), lengths are 1-Lipschitz, min and max keep error bounds; witness from C98's points |
| C130 | `Model/Dihedral64.v`: dihedral cosines with rnd64 after every operation, NaN outside [-1,1] | description of the list as for C55; concrete cells: expressions evaluated by Flocq's binary_float operations, `evF_ok` (Proofs/Eval64.v) equates that with rnd64; without thin faces: error propagated through normalisation, cross and dot products, quotient (Proofs/Dihedral64Bound.v), then cos decreasing on [0,pi] |
| C131 | `Model/Sets64.v`: Union, Intersection, Difference with rnd64 after every operation | operand errors pass through because the exact operations are 1-Lipschitz in every operand (`smin_slope`, Proofs/LipProofs.v), each smoothing step adds at most 12 u times the size of the values (Proofs/Sets64Proofs.v) |

## What is modelled

| /repo/SeismicMesh | model | left out |
|---|---|---|
| `sizing/cpp/FastHJ.cpp` | `FastHJ.v` (all), `Int32.v` (32-bit ints) | the Python wrapper's reshape |
| `sizing/mesh_size_function.py` | `Sizing.v`, `SizingCall.v` (the call), `SizingFloat.v`, `UFilter.v`, `Interp.v`, `SizingRanks.v`, `ReadBin.v`, `VelocityIO.v`, `Options.v`, `Plot.v` | drawing (matplotlib), printing; segyio and h5py are record types with the samples |
| `sizing/size_function.py` | `Interp.v` | |
| `geometry/signed_distance_functions.py` | `SDF.v` (`Round.v`: Disk and Ball, `Solid64.v`: Torus, Prism, Cylinder; `Sets64.v`: set operations, in binary64), `Plot.v` (`show`) | drawing (matplotlib), the random number generator |
| `geometry/cpp/fast_geometry.cpp` | `SDF.v`, `Mesh.v`, `Formulas.v`, `Dihedral.v`, `Dihedral64.v` (binary64) | array wrappers |
| `geometry/utils.py` | `Mesh.v`, `Snap.v` and `Orient.v` (binary64), `Simplex.v`, `Formulas.v`, `Laplace.v`, `Smooth3.v`, `Laplace64.v` and `Quality64.v` (binary64), `Generator.v` (linter) | printing, progress bars |
| `decomp/blocker.py` | `Blocker.v` | |
| `migration/migration.py` | `MPI.v`, `Migration.v`, `Localize.v`, `Parallel.v` | pickling of arrays |
| `migration/cpp/cpputils.cpp` | `WhereTo.v` | |
| `generation/utils.py` | `InitGrid.v`, `InitGrid64.v` (binary64, one process), `Forces.v` | |
| `generation/cpp/delaunay_class{,3}.cpp` | `Triang.v`: the numbering kept by the class | CGAL itself |
| `generation/cpp/delaunay.cpp` | `Formulas.v`: the buffer lengths; | circumcentres (CGAL), Delaunay of CGAL |
| `generation/mesh_generator.py` | `Options.v`, `Calls.v` (keywords as Python values), `Generator.v` (one process), `Parallel.v` (several), `Forces.v`, `Newton.v`, `Dihedral.v` | printing, timing, `silence`/`talk` |

## Trusted base

* Coq 8.16.1's kernel (and `coqc`, the OCaml runtime).  `vm_compute`/`native_compute` is used only as a conversion the kernel checks.
* Axioms.  `ASSUMPTIONS.md` (generated by `tools/gen_assumptions.py` from `Print Assumptions`) lists them theorem by theorem.  In all there are four,
  of the standard library: `ClassicalDedekindReals.sig_forall_dec` and `sig_not_dec` (the classical reals), `FunctionalExtensionality.functional_extensionality_dep`
  and `Classical_Prop.classic`.  The last comes in through Flocq, Coquelicot and the standard library's real analysis.  No axiom is declared in this development.
* Libraries used for lemmas only, without axioms of their own: Flocq (binary64), Coquelicot (derivatives of C47).
* The transcription of the code: made by hand, each definition with file and lines.
* The assumptions on code that is not in the repository, each a hypothesis or a universally quantified parameter of the theorems that need it:
  CGAL (`b_tri`, `q_tri`, `q_ins`, ...: an arbitrary function, with `good_backend` where rows must be valid), `np.unique` of rows (`uniq_ok`: some order, no duplicates),
  `np.argsort` (any sorting permutation), random numbers (any list), pyamg's solver (a solution of the linear system or any vector), scipy's interpolator (written out),
  MPI: reliable FIFO channels between ranks, blocking sends that may or may not be buffered, collectives written as messages through rank 0.
* Real numbers stand for binary64 except where `rnd`/`rnd64` appears: limiter, rectangle/cube distance, block decomposition, interpolation grid, hdf5 samples, vertex snapping (`Snap.v`), Disk and Ball (`Round.v`), untransformed Torus, Prism and Cylinder (`Solid64.v`), set operations (`Sets64.v`), signed volumes and flipping (`Orient.v`), the initial grid of one process (`InitGrid64.v`), laplacian2 (`Laplace64.v`), triangle quality (`Quality64.v`), dihedral cosines (`Dihedral64.v`), the sizing pipeline (`SizingFloat.v`: float32 and float64; overflow, NaN, options given as numpy scalars, the rows of linear_ramp padding and the values of uniform_filter stay open).
  So rounding errors elsewhere (for instance in forces, projections) are outside the theorems.
