STATUS = {
"C01": ("proved", "for every monotone rounding, and instantiated for binary64"),
"C02": ("proved", "rounded form and exact form; premise met by C02_converged_runs_exist"),
"C03": ("proved", "lower envelope at any stop, upper envelope at convergence"),
"C04": ("proved", "convergence bound in exact arithmetic; cap refuted for every imax up to int range (10000 included)"),
"C05": ("proved", ""),
"C06": ("proved", "int arithmetic without overflow, grid size <= 2^31; double division proved exact with Flocq"),
"C07": ("proved", ""), "C08": ("proved", "lower bound for all inputs, witness for the excess"), "C09": ("proved", ""),
"C10": ("proved", "positive half for all inputs; refutation by a witness valid for every filter"), "C11": ("proved", ""),
"C12": ("proved", ""), "C13": ("proved", ""), "C14": ("proved", ""), "C15": ("proved", "exact arithmetic; float32 rounding of coordinates not modelled"),
"C16": ("proved", ""), "C17": ("proved", "file = list of decoded samples"), "C18": ("proved", "uniform_filter is an oracle"),
"C19": ("proved", ""), "C75": ("proved", ""),
"C20": ("proved", "exact real arithmetic"), "C21": ("proved", "exact arithmetic and binary64 without overflow"), "C22": ("proved", "exact arithmetic, literal 0.866025 kept"),
"C23": ("proved", ""), "C24": ("proved", ""), "C25": ("proved", "refutation for every k and on concrete disks"), "C26": ("proved", ""),
"C27": ("proved", "2D: rotate=[a,0,0]"), "C28": ("proved", "positive half for all seven primitives, refutation by the tilted cube"), "C29": ("proved", ""),
"C30": ("proved", "np.mod as x - p*floor(x/p) in exact arithmetic"), "C31": ("proved", ""), "C32": ("proved", ""),
"C33": ("proved", "np.unique in any order; snapping abstracted to a key function"), "C34": ("proved", "exact arithmetic"), "C35": ("proved", ""),
"C36": ("proved", "any tie order of argsort"), "C37": ("proved", ""), "C38": ("proved", "non-degenerate triangles"), "C39": ("proved", ""),
"C40": ("proved", ""), "C41": ("proved", ""), "C42": ("proved", "exact arithmetic for the quality"), "C51": ("proved", "binary64 sign"),
"C43": ("proved", "exact arithmetic"), "C44": ("proved", "exact arithmetic, 2D and 3D"), "C45": ("proved", "exact arithmetic"), "C46": ("proved", "exact arithmetic"),
"C47": ("proved", "every directional derivative; exact arithmetic"), "C48": ("proved", "exact arithmetic"), "C49": ("proved", "any tie order of argsort; exact arithmetic"),
"C50": ("proved", "CGAL's squared_radius is an oracle"), "C76": ("proved", "exact arithmetic"),
    "C52": ("proved", "exact arithmetic; steps defined in Spec/Smooth.v; also proves when it raises (no boundary, pfix=[])"),
    "C53": ("proved", "general stopping theorem and a mesh on which, for every tol>0 and max_iter>=1, it stops while the next sweep moves a vertex by more than 300"),
    "C54": ("proved", "any exact solution of the assembled system (pyamg is an oracle)"),
    "C55": ("proved", "exactly the cells with a defined dihedral angle outside the bounds, increasing; collinear cells never, flat cells with proper faces always; exact arithmetic (rounding could push a cosine beyond 1 and yield NaN: not modelled)"),
    "C65": ("proved", "no duplicates, spacing h0, covering radius h0/2, extent, lower corner; exact arithmetic"),
    "C66": ("proved", "disjoint ranks, exact gaps between consecutive ranks, witness for points closer than h0, empty ranks for narrow blocks"),
    "C67": ("proved", "every initial point of a rank lies between grid coordinates of its local sizing grid along every axis"),
    "C56": ("proved", "any number of ranks >= 2, any number of iterations, any interleaving, any choice of buffering; MPI layer modelled as FIFO channels per pair of ranks; the tables of each iteration are given"),
    "C57": ("proved", "exact condition for completion, which rank hangs, and the run that mixes two iterations"),
    "C58": ("proved", "assembly on rank 0 for any number of ranks and schedule, and its combination with each rank's fix_mesh; Reduce modelled by its result"),
    "C77": ("proved", "assumes the triangulation lists inserted ghosts after the vertices it had before (stated in the theorem as the shape of the vertex list)"),
    "C59": ("proved", "CGAL's circle/box test is a parameter; table, selection, and the end-to-end exchange of one iteration"),
    "C60": ("proved", "buffer length against view length, foreign entries of the last row, and exactly when a write leaves the buffer"),
    "C61": ("proved", "soundness and completeness of the selection for any test between circle and disk, and two witnesses of missed vertices"),
    "C62": ("proved", "exact arithmetic; blocks are exactly the non-empty slabs of equal width, in order"),
    "C63": ("proved", "universal duplicate theorem and a witness of four blocks for two requested"),
    "C64": ("proved", "for both axes, a witness with two ranks"),
    "C78": ("proved", "binary64 via Flocq (FLT, round to nearest even), every operation rounded"),
    "C79": ("proved", "any number of ranks, schedule and buffering; bcast modelled as sends of the root in the order of the calls; exact arithmetic for the decomposition"),
    "C80": ("proved", "exact arithmetic"),
    "C74": ("proved", "CGAL is any implementation meeting stated relations; both positive and negative half for arbitrary histories"),
    "C81": ("proved", "CGAL's move onto an occupied position deletes the moved vertex (documented behaviour, assumed)"),
    "C82": ("proved", "2D and 3D; adjacency information of CGAL assumed correct with respect to the cell table"),
  "C70": ("proved", "forces cancel; neighbour-sum law with the exact desired length; sign; isolated vertices; fixed vertices; no drift; always some compressed bar"),
    "C71": ("proved", "exact selection rule, affine case exact and nearest, small-gradient residual, step bound for any function, final improvement of boundary vertices"),
    "C68": ("proved", "exact number of triangulations for whole max_iter, no mesh otherwise, explicit non-terminating run; back end arbitrary"),
    "C69": ("proved", "one process; back end arbitrary (np.unique assumed to return the distinct elements); witness with an unused vertex"),
    "C72": ("proved", "independence of the shape, enclosing box, own domain otherwise; exact arithmetic for the box"),
    "C73": ("proved", "no slivers before the cap, budget, witness at the cap, non-termination for 0, default bounds; back end arbitrary"),
    "C83": ("proved", "nodes, cells, range in the box, explicit extrapolation witness; grid coordinates rounded by an arbitrary function unless stated"),
    "C84": ("proved", "Lipschitz bound from the limiter's postcondition; explicit violation along a non-depth axis"),
    "C85": ("proved", "exact selection rule for arbitrary random numbers; constant size; r0m_is_h0 comparison; user points; failing call"),
    "C86": ("proved", "invariant over iterations for a triangulation that keeps its points; two explicit failing runs; 2D last stage only by independence of the fixed points"),
    "C87": ("proved", "exact layout; file name, extents and samples; km/s and negative padding shown as explicit failures"),
    "C88": ("proved", "confluence for arbitrary data-dependent programs; collectives are modelled as point-to-point messages under a tag of their own; tags as in the code"),
    "C89": ("proved", "lock-step specification Spec/Lockstep.v; triangulation, point insertion and box test arbitrary; explicit two-rank run"),
    "C90": ("proved", "exact arithmetic; CGAL assumed to return vertices of the block; explicit six-point case"),
    "C91": ("proved", "starvation invariants; collectives as point-to-point messages; three explicit cases"),
    'C92': ("proved", 'exact arithmetic; explicit 3D case of a tie'),
    'C93': ("proved", 'last iteration only: after a one-sided exchange in an earlier iteration a later message may be taken for the missing one.'),
    'C94': ("proved", 'scipy.ndimage.uniform_filter is modelled explicitly (Model/UFilter.v: moving averages with reflection), exact arithmetic.'),
    'C95': ("proved", 'Exact arithmetic. The interpolant is shown to exist for exact coordinates and at least two samples per axis (C95_function_built).'),
    'C96': ("proved", 'comm.bcast written as sends and receives; reader exceptions and NaN on rank 0 not modelled separately.'),
    'C97': ("proved", 'binary64 rounding of the quotient, the product and the width (Model/Snap.v); NaN (all vertices at one place), overflow and an input coordinate -0.0 not modelled'),
    'C98': ("proved", 'Flocq binary64 with gradual underflow; overflow not modelled.'),
    'C99': ("proved", 'Exact arithmetic. The tolerance statement without padding; the comparison without grading with any padding.'),
    'C100': ("proved", 'Forward error analysis with Flocq; overflow and fused multiply-add excluded, einsum of three products summed from the left.'),
    'C101': ("proved", 'Exact arithmetic. C101_rounds gives the history of a returning call, C101_direction/C101_length the geometry of a move, C101_default_step and C101_reach its consequences, C101_undefined_direction the degenerate sliver.'),
    'C102': ("proved", 'Exact arithmetic, sharp set operations for the union/intersection/difference statements.'),
    'C103': ("proved", 'Exact arithmetic (in double precision exact for powers of two); one process.'),
    'C104': ("proved", 'Exact arithmetic; sizes at the samples of the grid.'),
    'C105': ("proved", 'Reversal of the depth axis is excluded: water is looked for in rows other than row 0 and only one side of that axis is padded. Exact arithmetic. The graded half assumes both results graded with tolerance tol (C02 gives it when the limiter converges).'),
    'C106': ("proved", 'C106_generate_mesh (run that meets neither place), C106_steep_levels (sufficient conditions on the inputs), C106_sliver_removal, C106_domains, C106_floor_refuted (the failing region is not empty).'),
    'C107': ("proved", 'Both halves proved. One process; explicit bbox=None, arrays used as flags and a flat pfix are not modelled; of several failing tests the model may report another one than Python.'),
    'C108': ("proved", 'Both halves proved (one process). Overflow not modelled.'),
    'C109': ("proved", 'Overflow and NaN are outside the model; rows written by linear_ramp padding are left open and excluded where it matters.'),
    'C110': ("proved", ''),
    'C111': ("proved", 'C111_checked_then_moved, C111_kept_if_on_boundary; C111_inverted_refuted and C111_empty_refuted are full runs on a square.'),
    'C112': ("proved", "Model/Int32.v checks every int operation; exact limit, including 2^31 - 1 (a prime, so the grid is a line and the last node's successor overflows)."),
    'C113': ("proved", 'C113_same_as_without holds for arbitrary programs over the message layer; C113_needs_everyone and C113_killed_inside under the hypotheses of C89_run'),
    'C114': ("proved", 'C114_unsmoothed, C114_one_iteration, C114_smoothed; the solver is an oracle, its correctness a hypothesis of the averaging part'),
    'C115': ("proved", 'positive theorems for boundary, manifold, edges, entities, fix_mesh and 2D deletion; C115_delete_3d_refuted is the 3D failure'),
    'C116': ("proved", 'C116_far_refuted is the extrapolation failure'),
    'C117': ("proved", 'Sending to the process below always works; sending to the process above only if the cells at the vertex do not also reach the box below (a vertex is sent one way only, C59/C61). The overflow of the export table (C60) is excluded by requiring a vertex that stays. The failing region (other axes are not padded) has a two-process witness, C117_outside_missed_refuted.'),
    'C118': ("proved", 'Model/SizingCall.v composes the reading, the defaults, numpy broadcasting, padding and interpolation; every half, including the silent cases, is proved for all arguments.'),
    'C119': ("proved", 'Spec/Solids.v defines the family; real arithmetic (rounding of eval is in C98/C21); generate_mesh part on one process.'),
    'C120': ("proved", 'Exact real arithmetic; the linear solver returns an exact solution.'),
    'C121': ("proved", 'exact arithmetic; CGAL, np.unique keys and pyamg assumed to commute with the move'),
    'C122': ("proved", 'matplotlib is not modelled; np.arange in exact arithmetic'),
    'C123': ("proved", 'Exact arithmetic; pyamg is an oracle returning an exact solution. The failing half is C123_positive_tol_stops_far_refuted.'),
    'C124': ("proved", 'Exact arithmetic; pyamg is an oracle returning an exact solution. The failing half is C124_stretch_refuted.'),
    'C125': ("proved", 'Exact arithmetic (in floats the order of summation matters). The failing half is C125_tie_refuted.'),
    'C126': ("proved", 'Both halves: exact outcomes and refutation of the documented meaning in 3D.'),
    'C127': ("proved", 'Both halves: error bound against exact sweeps, exactness of held vertices, and the counterexample to the exact hull property.'),
    'C128': ("proved", 'Overflow is not modelled; sqrt is correctly rounded; squares are summed from the left.'),
    'C129': ("proved", 'Overflow is not modelled; rotation, stretch and translation in floating point are not covered.'),
    'C130': ("proved", "Both halves: exact description of the computed list; concrete cells evaluated through Flocq's operations, proved equal to round-to-nearest of the real operations; error bound of the cosine for tetrahedra without thin faces."),
    'C131': ("proved", 'Rounding after every operation; the exact smoothed minimum is 1-Lipschitz, so operand errors do not grow.'),
}
