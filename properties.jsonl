{"id": "C01", "title": "Gradient limiting only refines, and never below the input minimum", "statement": "The graded size field returned by limgrad has the same length as the input, is nowhere larger than the input and nowhere smaller than the smallest input value; this holds for the rounded (binary64) arithmetic the code uses, not only for exact arithmetic.", "quantifier": "every grid shape, every input field, every non-negative growth per cell, every iteration cap", "why_tests_cant": "A test samples a few grids; the claim is over all fields, all iteration counts and all roundings.", "anchors": ["SeismicMesh/sizing/cpp/FastHJ.cpp:c_limgrad"]}
{"id": "C02", "title": "Gradient limiting that stops by convergence leaves a graded field", "statement": "If limgrad stops because no node is active any more, every two grid nodes adjacent along an axis differ by at most grade*spacing plus the documented tolerance (min of the field times sqrt(1e-9)).", "quantifier": "every grid shape and input field; every pair of adjacent nodes", "why_tests_cant": "The worklist could miss an edge only for particular update orders; sampling fields cannot exclude it.", "anchors": ["SeismicMesh/sizing/cpp/FastHJ.cpp:c_limgrad", "SeismicMesh/sizing/mesh_size_function.py:_enforce_gradation_sizing"]}
{"id": "C03", "title": "Gradient limiting does not over-refine", "statement": "Whatever the iteration at which limgrad stops, the returned value at a node v is at least min over nodes u of input(u) + g*d(u,v), with d the grid (Manhattan) distance and g the allowed growth per cell; if it stops by convergence the value is at most input(u) + (g+tol)*d(u,v) for every u.", "quantifier": "every grid, field, node and stopping iteration", "why_tests_cant": "It is a two-sided bound against an optimal field quantified over all source nodes.", "anchors": ["SeismicMesh/sizing/cpp/FastHJ.cpp:c_limgrad"]}
{"id": "C04", "title": "Gradient limiting converges, but the hard-wired cap of sweeps can cut it short", "statement": "For a strictly positive field and non-negative growth, the limiter reaches convergence within an explicit finite number of sweeps, in exact arithmetic and in binary64 (there with a bound close to the exact one when the sizes are within a factor 2^30 of each other); the fixed cap (10000) used by the sizing function is not always enough: for every cap there is a positive field for which the returned field is not graded.", "quantifier": "every positive field (termination) / every cap (failure)", "why_tests_cant": "Needs a termination argument for all fields and a family of adversarial grids growing with the cap.", "anchors": ["SeismicMesh/sizing/cpp/FastHJ.cpp:c_limgrad", "SeismicMesh/sizing/mesh_size_function.py:_enforce_gradation_sizing"]}
{"id": "C05", "title": "Gradient limiting leaves graded fields alone and is idempotent", "statement": "If the input is already graded (adjacent nodes within growth plus tolerance) the output equals the input; applying the limiter to a converged output returns it unchanged.", "quantifier": "every grid shape and field", "why_tests_cant": "Idempotence over all fields cannot be sampled.", "anchors": ["SeismicMesh/sizing/cpp/FastHJ.cpp:c_limgrad"]}
{"id": "C06", "title": "Grid index arithmetic of the limiter is a bijection and stays in bounds", "statement": "Linear index to (row,column,plane) and back is the identity for every index in range, the subscripts are in range, and all seven stencil indices that the limiter reads or writes are valid array positions; the floating-point division and ceil used for the plane index give the exact integer result for every index below 2^31.", "quantifier": "every grid shape with positive extents and every node", "why_tests_cant": "Off-by-one errors show only at particular extents; rounding of the double division only at particular indices.", "anchors": ["SeismicMesh/sizing/cpp/FastHJ.cpp:ind2sub", "SeismicMesh/sizing/cpp/FastHJ.cpp:sub2ind", "SeismicMesh/sizing/cpp/FastHJ.cpp:c_limgrad"]}
{"id": "C07", "title": "Mesh sizes stay between hmin and hmax", "statement": "With hmin<=hmax and no timestep given, every grid value of the size function built by get_sizing_function_from_segy (after grading and domain padding in any style) lies in [hmin,hmax].", "quantifier": "every velocity model, every wl/freq/grad option, every grade, pad width and pad style", "why_tests_cant": "The bound is over all arrays and option combinations.", "anchors": ["SeismicMesh/sizing/mesh_size_function.py:get_sizing_function_from_segy", "SeismicMesh/sizing/mesh_size_function.py:_build_domain_pad", "SeismicMesh/sizing/mesh_size_function.py:_pad_it"]}
{"id": "C08", "title": "The size function's declared minimum is not honoured when a timestep is given", "statement": "With dt>0 the field can be pushed outside [hmin,hmax]: there are inputs for which some value exceeds hmax; values are never below hmin, because the timestep step only enlarges sizes and grading does not go below the minimum.", "quantifier": "every velocity model and option set with dt>0", "why_tests_cant": "The upper violation needs a specific combination; the lower bound is universal.", "anchors": ["SeismicMesh/sizing/mesh_size_function.py:_enforce_courant_sizing", "SeismicMesh/sizing/mesh_size_function.py:get_sizing_function_from_segy"]}
{"id": "C09", "title": "Courant step enforces the requested Courant number", "statement": "After the Courant step alone, vp*dt/(dim*size) <= cr_max/(dim*space_order) at every grid point, sizes are only ever enlarged, and points already satisfying the bound are untouched; zero cr_max, dt or space_order disables it and negative values are rejected.", "quantifier": "every velocity array and size array with positive entries, all parameters", "why_tests_cant": "Universal over arrays and real parameters.", "anchors": ["SeismicMesh/sizing/mesh_size_function.py:_enforce_courant_sizing"]}
{"id": "C10", "title": "Grading after the Courant step can break the Courant bound again", "statement": "The final size function need not satisfy the Courant bound the user asked for: there are a velocity model and options (dt>0, grade>0) where the graded field has a point whose Courant number exceeds the requested maximum. Without grading (grade=0) the final grid values do satisfy it.", "quantifier": "existence for the failure; every model for the positive half", "why_tests_cant": "Tests look at meshes, not at the Courant number of every grid point for all models.", "anchors": ["SeismicMesh/sizing/mesh_size_function.py:get_sizing_function_from_segy"]}
{"id": "C11", "title": "Cells per wavelength", "statement": "With wl>0, no gradient option or with it, and no timestep, every size value is at most max(hmin, vp/(freq*wl)): the requested number of cells per wavelength is met wherever hmin allows.", "quantifier": "every velocity model, wl, freq, grade", "why_tests_cant": "Universal over arrays and options.", "anchors": ["SeismicMesh/sizing/mesh_size_function.py:_wavelength_sizing", "SeismicMesh/sizing/mesh_size_function.py:get_sizing_function_from_segy"]}
{"id": "C12", "title": "Water/zero velocities are replaced unless they sit only in row 0", "statement": "If some grid row other than the first contains a velocity below 1e-3, every such velocity is replaced by vp_water (rejected when outside [1300,1800]) and all others are kept; if they occur only in row 0 nothing is replaced and no validity check is made.", "quantifier": "every velocity array and vp_water", "why_tests_cant": "The exception depends on the position of the offending samples.", "anchors": ["SeismicMesh/sizing/mesh_size_function.py:get_sizing_function_from_segy"]}
{"id": "C13", "title": "Building a size function twice from one array is not repeatable", "statement": "The caller's velocity array is modified in place: with units km-s (or ft-s) a second call on the same array sees already converted velocities, so the two results differ; with m-s and no water replacement the array is left unchanged and the calls agree.", "quantifier": "every array / history of calls", "why_tests_cant": "It is a property of call histories on shared mutable data.", "anchors": ["SeismicMesh/sizing/mesh_size_function.py:get_sizing_function_from_segy"]}
{"id": "C14", "title": "Domain padding keeps data and grows the grid as declared", "statement": "Padding by w gives an array with int(w/dz) extra rows before the first row and int(w/dx) extra columns on both sides; the original block is unchanged; with style edge every padded value equals the nearest original value; the box grows by w below and on both sides and not at the top; negative w is rejected, and so is an unknown style when w>0 (with w=0 nothing happens, whatever the style).", "quantifier": "every array, width and style", "why_tests_cant": "Universal over arrays, widths and indices.", "anchors": ["SeismicMesh/sizing/mesh_size_function.py:_build_domain_pad", "SeismicMesh/sizing/mesh_size_function.py:_pad_it", "SeismicMesh/sizing/mesh_size_function.py:_get_dimensions"]}
{"id": "C15", "title": "Padding shifts the original data in space", "statement": "After padding, the grid coordinate attached to the original first row is in general not the original box edge: even when the pad is a whole number of cells n, the row sits at distance pad*(nz+n)/(nz+n-1) from the new edge instead of pad, so the size function inside the original domain changes. Only the top row keeps its coordinate.", "quantifier": "every grid with a non-trivial pad", "why_tests_cant": "A tolerance-based test cannot distinguish a systematic O(1/n) shift for all n.", "anchors": ["SeismicMesh/sizing/mesh_size_function.py:_build_domain_pad", "SeismicMesh/sizing/mesh_size_function.py:_build_sizing_function", "SeismicMesh/sizing/mesh_size_function.py:_get_vectors"]}
{"id": "C16", "title": "Gradation holds in physical units only along the first axis", "statement": "With the limiter converged, adjacent values along z differ by at most grade times the cell spacing used (plus tolerance); along x the same absolute difference is allowed although the spacing may be smaller, so the physical gradient along x can exceed the requested grade when dx<dz.", "quantifier": "every model / existence for the failure", "why_tests_cant": "Depends on the aspect ratio of the grid.", "anchors": ["SeismicMesh/sizing/mesh_size_function.py:get_sizing_function_from_segy", "SeismicMesh/sizing/mesh_size_function.py:_enforce_gradation_sizing"]}
{"id": "C17", "title": "Binary velocity files are unpacked without loss", "statement": "For each permutation given as axes_order and each sort style, the array returned has shape (nz,nx,ny), and every sample of the file appears at exactly one grid position (computed from the sort style, the axes order and the vertical flip).", "quantifier": "all sizes, all permutations of the axes, both sort styles", "why_tests_cant": "Universal over sizes and positions.", "anchors": ["SeismicMesh/sizing/mesh_size_function.py:_read_bin"]}
{"id": "C18", "title": "Velocity-gradient sizing lies in a fixed band", "statement": "With grad>0 and a window variance that is non-negative with a positive maximum, the gradient-based size lies in [grad/1.1, 10*grad], with the value 10*grad where the variance is smallest; for a constant velocity model the normalisation divides zero by zero and no usable size is produced.", "quantifier": "every variance field", "why_tests_cant": "Universal over fields; the degenerate case is a measure-zero input.", "anchors": ["SeismicMesh/sizing/mesh_size_function.py:_gradient_sizing"]}
{"id": "C19", "title": "Unrecognised options are rejected", "statement": "generate_mesh and sliver_removal raise ValueError whenever some keyword is outside the recognised set, and never reject a recognised name; get_sizing_function_from_segy does the same, but only on rank 0.", "quantifier": "every set of keyword arguments", "why_tests_cant": "Unbounded set of keyword combinations.", "anchors": ["SeismicMesh/generation/mesh_generator.py:_parse_kwargs", "SeismicMesh/sizing/mesh_size_function.py:get_sizing_function_from_segy"]}
{"id": "C20", "title": "Disk and Ball return the exact signed distance", "statement": "For an untransformed Disk/Ball, eval(p) is negative exactly inside, zero exactly on, positive exactly outside the circle/sphere; its absolute value is the Euclidean distance from p to the circle/sphere (no boundary point is closer, and one attains it).", "quantifier": "all centres, radii >= 0 and points", "why_tests_cant": "Real-valued universal statement.", "anchors": ["SeismicMesh/geometry/signed_distance_functions.py:_ddisk", "SeismicMesh/geometry/signed_distance_functions.py:dball", "SeismicMesh/geometry/signed_distance_functions.py:Disk", "SeismicMesh/geometry/signed_distance_functions.py:Ball"]}
{"id": "C21", "title": "Rectangle and Cube classify points exactly", "statement": "For an untransformed Rectangle/Cube, eval(p) <0 / =0 / >0 exactly when p is strictly inside / on the boundary / outside of the box, in exact and in binary64 arithmetic; inside, -eval(p) is the distance to the boundary; outside it never overestimates the distance; eval is 1-Lipschitz; the Python and C++ implementations agree.", "quantifier": "all boxes and points (and all binary64 inputs without overflow)", "why_tests_cant": "Quantifies over all reals/floats.", "anchors": ["SeismicMesh/geometry/cpp/fast_geometry.cpp:c_drectangle", "SeismicMesh/geometry/cpp/fast_geometry.cpp:c_dblock", "SeismicMesh/geometry/signed_distance_functions.py:drectangle", "SeismicMesh/geometry/signed_distance_functions.py:dblock"]}
{"id": "C22", "title": "Torus, Prism and Cylinder describe their solids and fit their boxes", "statement": "eval<=0 exactly on the documented solid (Torus about the y axis, right prism, Cylinder of height h and radius r about the y axis) and every point of the solid lies in the object's bounding box.", "quantifier": "all parameters and points", "why_tests_cant": "Universal over reals.", "anchors": ["SeismicMesh/geometry/signed_distance_functions.py:Torus", "SeismicMesh/geometry/signed_distance_functions.py:Prism", "SeismicMesh/geometry/signed_distance_functions.py:Cylinder"]}
{"id": "C23", "title": "Sharp set operations have set semantics", "statement": "With smoothness 0: a point is inside the Union iff inside some operand, inside the Intersection iff inside all, strictly inside the Difference iff strictly inside the first and strictly outside all others; the value depends on the operands only through the set of their values.", "quantifier": "any number of operands and any points", "why_tests_cant": "Unbounded operand lists.", "anchors": ["SeismicMesh/geometry/signed_distance_functions.py:Union", "SeismicMesh/geometry/signed_distance_functions.py:Intersection", "SeismicMesh/geometry/signed_distance_functions.py:Difference"]}
{"id": "C24", "title": "Smooth set operations stay within k/4 per step of the sharp ones", "statement": "With smoothness k>0 and n operands: min-(n-1)k/4 <= smooth union <= min, max <= smooth intersection <= max+(n-1)k/4, and a two-operand smooth difference is within k/4 above the sharp difference; operands further than k apart are combined exactly.", "quantifier": "all k>0, all operand lists and points", "why_tests_cant": "Universal over reals and list lengths.", "anchors": ["SeismicMesh/geometry/signed_distance_functions.py:Union._smooth_union", "SeismicMesh/geometry/signed_distance_functions.py:Intersection._smooth_intersection", "SeismicMesh/geometry/signed_distance_functions.py:Difference._smooth_difference", "SeismicMesh/geometry/signed_distance_functions.py:_loop_call"]}
{"id": "C25", "title": "Smooth Difference of three or more domains is not their difference", "statement": "For three operands A,B,C a positive smoothness computes a smoothed A-(B-C): for every k>0 there are operand values where a point inside A and strictly inside C (hence removed by the sharp Difference) is reported inside.", "quantifier": "every smoothness", "why_tests_cant": "The existing test uses two operands only.", "anchors": ["SeismicMesh/geometry/signed_distance_functions.py:Difference.eval", "SeismicMesh/geometry/signed_distance_functions.py:_loop_call"]}
{"id": "C26", "title": "Bounding boxes of set operations contain the domain", "statement": "If each operand's box contains the operand, the box of a sharp Union, of an Intersection and of a Difference (sharp or smooth) contains the result; for a smooth Union it need not: two equal disks of radius r with smoothness k reach r+k/4.", "quantifier": "any operands", "why_tests_cant": "Universal over operands; failure is only for smooth unions.", "anchors": ["SeismicMesh/geometry/signed_distance_functions.py:Union", "SeismicMesh/geometry/signed_distance_functions.py:Intersection", "SeismicMesh/geometry/signed_distance_functions.py:Difference"]}
{"id": "C27", "title": "Transformed domains are the transformed set", "statement": "For a primitive with stretch, rotation and translation, eval at the forward image (stretch, then rotation about z, y, x, then translation) of a point q equals the untransformed primitive's eval at q, and every point is such an image.", "quantifier": "all stretch vectors (non-zero), angles, translations and points", "why_tests_cant": "Universal over reals and trigonometric functions.", "anchors": ["SeismicMesh/geometry/signed_distance_functions.py:_manipulate", "SeismicMesh/geometry/signed_distance_functions.py:_build_stretch", "SeismicMesh/geometry/signed_distance_functions.py:_build_rotation", "SeismicMesh/geometry/signed_distance_functions.py:_build_translation"]}
{"id": "C28", "title": "Bounding box of a transformed domain", "statement": "If the untransformed domain lies in its box, the transformed domain lies in the recomputed box in 2D, and in 3D when at most one rotation angle is non-zero; with two or more rotation angles it need not (cube rotated by pi/4 about x and y).", "quantifier": "all transforms", "why_tests_cant": "Universal over reals; the failing case needs a specific combination of angles.", "anchors": ["SeismicMesh/geometry/signed_distance_functions.py:_build_rotation", "SeismicMesh/geometry/signed_distance_functions.py:_build_stretch", "SeismicMesh/geometry/signed_distance_functions.py:_build_translation"]}
{"id": "C29", "title": "Corner points handed to the mesher are the box corners only before translation", "statement": "corners(bbox) lists the 2^d corners of the box, each once; a Rectangle's or Cube's corners attribute equals that for its final box when it is not translated; when it is translated the attribute still holds the untranslated corners, which may lie outside the domain and are then used as fixed points.", "quantifier": "all boxes and translations", "why_tests_cant": "Universal; needs the combination of attributes and filtering.", "anchors": ["SeismicMesh/geometry/signed_distance_functions.py:corners", "SeismicMesh/geometry/signed_distance_functions.py:_build_translation", "SeismicMesh/generation/mesh_generator.py:generate_mesh"]}
{"id": "C30", "title": "Repeat is periodic inside its box", "statement": "The folded coordinate lies in [-P/2,P/2), differs from the query by a whole number of periods, and so two points differing by whole periods get the same tile value; a point is inside iff inside the box and its folded image is inside the tile.", "quantifier": "all periods >0, points and tiles", "why_tests_cant": "Universal over reals and integers.", "anchors": ["SeismicMesh/geometry/signed_distance_functions.py:Repeat"]}
{"id": "C31", "title": "Mixed-dimension operand lists are silently accepted", "statement": "The dimension check of Union/Intersection/Difference never rejects anything: a list whose first operand is 2D is accepted whatever follows (the box is taken from the first two directions), and a 3D operand followed by a 2D one fails with an IndexError while the box is computed, not with the intended assertion.", "quantifier": "every operand list", "why_tests_cant": "A test of the guard would need to expect acceptance of the wrong input.", "anchors": ["SeismicMesh/geometry/signed_distance_functions.py:Union.__init__", "SeismicMesh/geometry/signed_distance_functions.py:Intersection.__init__", "SeismicMesh/geometry/signed_distance_functions.py:Difference.__init__"]}
{"id": "C32", "title": "Reusing a stretch array", "statement": "Building a stretched primitive from a float array normalises the caller's array in place, so building the same primitive twice from the same array gives an unstretched second one unless the vector has unit length.", "quantifier": "all stretch vectors, histories of constructions", "why_tests_cant": "History-dependent aliasing.", "anchors": ["SeismicMesh/geometry/signed_distance_functions.py:_build_stretch"]}
{"id": "C33", "title": "fix_mesh removes duplicate vertices and entities and loses nothing", "statement": "All output indices are valid; output vertices are input vertices, pairwise different after snapping; the set of entities, described by their snapped vertex coordinates, is the same before and after; no two output entities have the same vertex set; with delete_unused every output vertex is used.", "quantifier": "every mesh with valid indices and every snapping", "why_tests_cant": "Universal over meshes.", "anchors": ["SeismicMesh/geometry/utils.py:fix_mesh", "SeismicMesh/geometry/utils.py:unique_rows", "SeismicMesh/geometry/utils.py:unique_row_view"]}
{"id": "C34", "title": "fix_mesh orients entities", "statement": "With fix_orientation every returned simplex has non-negative signed volume in 2D and 3D and the volumes are unchanged in absolute value.", "quantifier": "every mesh", "why_tests_cant": "Universal over meshes and coordinates.", "anchors": ["SeismicMesh/geometry/utils.py:fix_mesh", "SeismicMesh/geometry/utils.py:simp_vol"]}
{"id": "C35", "title": "fix_mesh's third result is a vertex map only without delete_unused", "statement": "Without delete_unused the third result maps every input vertex to an output vertex with the same snapped coordinates; with delete_unused it is not such a map (it is the flattened connectivity), e.g. its length can differ from the number of input vertices.", "quantifier": "every mesh / existence", "why_tests_cant": "Universal / counterexample.", "anchors": ["SeismicMesh/geometry/utils.py:fix_mesh"]}
{"id": "C36", "title": "Vertex-to-entity tables are right exactly when every vertex is used", "statement": "If every vertex number up to the largest is used by some entity, the slice vtoe[ptr[v]:ptr[v+1]] lists exactly the entities containing v with the right multiplicity, for any tie order of the sort; if some vertex is unused the slices are shifted and wrong.", "quantifier": "every mesh and every admissible (unstable) sort result", "why_tests_cant": "Universal over meshes and over unspecified sort orders.", "anchors": ["SeismicMesh/geometry/utils.py:vertex_to_entities"]}
{"id": "C37", "title": "Edge lists are complete and free of duplicates", "statement": "get_edges lists every edge of every simplex; the unique edge list used for the forces contains each undirected edge of the mesh exactly once, in increasing order.", "quantifier": "every 2D and 3D connectivity", "why_tests_cant": "Universal.", "anchors": ["SeismicMesh/geometry/utils.py:get_edges", "SeismicMesh/geometry/cpp/fast_geometry.cpp:unique_edges", "SeismicMesh/generation/mesh_generator.py:_get_edges"]}
{"id": "C38", "title": "Boundary edges are those of exactly one triangle, and close up", "statement": "get_boundary_edges(2D) returns exactly the edges belonging to exactly one triangle; in a mesh where no edge belongs to more than two triangles each vertex meets an even number of boundary edges (the boundary has no loose ends).", "quantifier": "every triangle mesh", "why_tests_cant": "Universal parity statement.", "anchors": ["SeismicMesh/geometry/utils.py:get_boundary_edges"]}
{"id": "C39", "title": "Winding the boundary yields a trail, one loop only", "statement": "get_winded_boundary_edges always terminates and returns distinct boundary edges, consecutive ones sharing a vertex, starting with the first; if every boundary vertex meets exactly two boundary edges and the boundary is connected all boundary edges are returned as a closed loop; with a hole in the mesh the other loops are missing.", "quantifier": "every mesh with non-empty boundary", "why_tests_cant": "Universal; multi-loop failure.", "anchors": ["SeismicMesh/geometry/utils.py:get_winded_boundary_edges"]}
{"id": "C40", "title": "Boundary facets, vertices and entities", "statement": "get_boundary_facets returns exactly the triangles belonging to exactly one tetrahedron; get_boundary_vertices exactly the vertices of boundary edges (2D) or facets (3D), sorted without repetition; get_boundary_entities exactly the entities touching a boundary vertex when all vertices are used.", "quantifier": "every mesh", "why_tests_cant": "Universal.", "anchors": ["SeismicMesh/geometry/utils.py:get_facets", "SeismicMesh/geometry/utils.py:get_boundary_facets", "SeismicMesh/geometry/utils.py:get_boundary_vertices", "SeismicMesh/geometry/utils.py:get_boundary_entities"]}
{"id": "C41", "title": "is_manifold decides that each boundary vertex has two boundary edges", "statement": "For a triangle mesh with no edge in more than two triangles is_manifold is True iff every boundary vertex meets exactly two boundary edges; an edge shared by more than two triangles can go unnoticed (verdict True), contrary to the documentation; a mesh without boundary edges raises IndexError.", "quantifier": "every triangle mesh", "why_tests_cant": "Universal counting argument.", "anchors": ["SeismicMesh/geometry/utils.py:is_manifold"]}
{"id": "C42", "title": "delete_boundary_entities removes exactly the poor boundary entities", "statement": "It removes exactly the entities that touch the boundary and have quality below the threshold (then cleans up); afterwards boundary entities below the threshold can remain because deletion exposes new boundary.", "quantifier": "every mesh and threshold", "why_tests_cant": "Universal / counterexample.", "anchors": ["SeismicMesh/geometry/utils.py:delete_boundary_entities"]}
{"id": "C43", "title": "Triangle quality is between 0 and 1 and 1 only for equilateral triangles", "statement": "For every non-degenerate triangle simp_qual lies in (0,1], equals 1 iff the triangle is equilateral, and is unchanged by translation, reflection, rotation and scaling.", "quantifier": "every non-degenerate triangle", "why_tests_cant": "Universal real inequality.", "anchors": ["SeismicMesh/geometry/utils.py:simp_qual"]}
{"id": "C44", "title": "Signed volumes behave like oriented volumes", "statement": "simp_vol changes sign when two vertices are swapped, is invariant under translation, scales with s^d, and is additive when a simplex is split at an interior (indeed any) point.", "quantifier": "every simplex in 2D/3D", "why_tests_cant": "Universal polynomial identities.", "anchors": ["SeismicMesh/geometry/utils.py:simp_vol"]}
{"id": "C45", "title": "Determinants", "statement": "calc_3x3determinant and calc_4x4determinant equal the Leibniz determinant of the matrix; the 4x4 determinant of homogeneous coordinates is minus six times the tetrahedron's signed volume (up to the documented sign).", "quantifier": "all real matrices", "why_tests_cant": "Polynomial identity over all reals.", "anchors": ["SeismicMesh/geometry/cpp/fast_geometry.cpp:c_calc_3x3determinant", "SeismicMesh/geometry/cpp/fast_geometry.cpp:c_calc_4x4determinant", "SeismicMesh/migration/cpp/cpputils.cpp:calc_4x4dete"]}
{"id": "C46", "title": "Volume gradient", "statement": "calc_volume_grad returns the exact gradient (up to the orientation sign) of the tetrahedron's volume with respect to its first vertex: moving it by h changes simp_vol by exactly -grad.h.", "quantifier": "all tetrahedra and displacements", "why_tests_cant": "Universal identity.", "anchors": ["SeismicMesh/geometry/cpp/fast_geometry.cpp:c_calc_volume_grad"]}
{"id": "C47", "title": "Circumsphere gradient", "statement": "calc_circumsphere_grad returns the gradient with respect to the first vertex of the squared circumradius, for every non-degenerate tetrahedron.", "quantifier": "all non-degenerate tetrahedra", "why_tests_cant": "Derivative of a rational function at all points.", "anchors": ["SeismicMesh/geometry/cpp/fast_geometry.cpp:c_calc_circumsphere_grad"]}
{"id": "C48", "title": "Point-in-simplex tests", "statement": "For a non-degenerate triangle vertex_in_entity2 holds iff the point is a convex combination of the corners (boundary included); for a non-degenerate tetrahedron vertex_in_entity3 holds iff the point is a strictly positive convex combination (boundary excluded).", "quantifier": "all simplices and points", "why_tests_cant": "Universal.", "anchors": ["SeismicMesh/geometry/utils.py:vertex_in_entity2", "SeismicMesh/geometry/utils.py:vertex_in_entity3"]}
{"id": "C49", "title": "Overlap detection is sound but incomplete", "statement": "do_any_overlap reports a pair exactly when the entities share a vertex, the second is not degenerate and the first one's centroid lies in it (once per common vertex); in particular it reports nothing for meshes of non-degenerate entities with disjoint interiors, and misses overlapping triangles whose centroids are outside each other.", "quantifier": "every 2D and 3D mesh with all vertices used", "why_tests_cant": "Universal / counterexample.", "anchors": ["SeismicMesh/geometry/utils.py:do_any_overlap", "SeismicMesh/geometry/utils.py:get_centroids"]}
{"id": "C50", "title": "Radius-edge ratio", "statement": "In 3D calc_re_ratios returns circumradius over shortest edge for every tetrahedron, which is at least sqrt(3/8) (the regular one) but does not notice slivers: there are tetrahedra with ratio at most sqrt(1/2), edges at least 1 and arbitrarily small volume; in 2D the circumradii are computed for only half of the triangles, so for one triangle the result is empty, for two or three all entries use the first triangle's radius, and for four or more the call fails.", "quantifier": "every mesh", "why_tests_cant": "The existing test uses two congruent triangles, for which the wrong value coincides.", "anchors": ["SeismicMesh/geometry/utils.py:calc_re_ratios", "SeismicMesh/generation/cpp/delaunay.cpp:circumballs2", "SeismicMesh/generation/cpp/delaunay.cpp:c_circumballs2"]}
{"id": "C51", "title": "remove_external_entities keeps exactly the entities touching the block", "statement": "An entity is kept iff at least one of its vertices lies in the closed box given by the extent; vertices are unchanged and the returned index map is the identity.", "quantifier": "every mesh and extent", "why_tests_cant": "Universal.", "anchors": ["SeismicMesh/geometry/utils.py:remove_external_entities", "SeismicMesh/geometry/cpp/fast_geometry.cpp:c_remove_external_entities2"]}
{"id": "C52", "title": "Iterative Laplacian smoothing keeps the boundary and the bounding box", "statement": "laplacian2 never moves boundary vertices nor the vertices nearest to the requested fixed points, every other vertex is at each sweep a convex combination of its neighbours so all vertices stay in the convex hull (in every half-plane containing the original vertices), and a mesh with an unused vertex is returned unchanged; with pfix=[] (an empty list instead of None) or without any boundary edge it raises as soon as one sweep is requested.", "quantifier": "every mesh, every number of sweeps", "why_tests_cant": "Universal over meshes and iteration counts.", "anchors": ["SeismicMesh/geometry/utils.py:laplacian2"]}
{"id": "C53", "title": "Laplacian smoothing may stop although vertices still move", "statement": "The stopping test uses the signed relative lengthening of edges, so a sweep in which edges only shrink stops the iteration however large the movement.", "quantifier": "existence, for every tolerance>0", "why_tests_cant": "Needs a specific family of meshes.", "anchors": ["SeismicMesh/geometry/utils.py:laplacian2"]}
{"id": "C54", "title": "Fixed-point Laplacian smoothing", "statement": "Any exact solution of the system built by laplacian2_fixed_point keeps boundary vertices and puts every other used vertex at the (multiplicity-weighted) average of its neighbours; so interior fixed points (pfix) are moved unless already at that average; if every vertex is connected to the boundary all coordinates stay within the range of the boundary coordinates and there is exactly one solution; the position of a vertex that belongs to no triangle is not determined by the system.", "quantifier": "every triangle mesh", "why_tests_cant": "Universal discrete maximum principle.", "anchors": ["SeismicMesh/geometry/utils.py:laplacian2_fixed_point", "SeismicMesh/generation/mesh_generator.py:_termination"]}
{"id": "C55", "title": "Sliver detection", "statement": "The list of slivers contains exactly the tetrahedra with at least one dihedral angle outside the bounds, sorted, once each; undefined angles (0/0) never count, so a tetrahedron with all corners on a line is never listed; a flat one whose faces are proper triangles is always listed when the lower bound is positive.", "quantifier": "every mesh and bounds", "why_tests_cant": "Universal; NaN case.", "anchors": ["SeismicMesh/generation/mesh_generator.py:_calc_dihedral_angles", "SeismicMesh/geometry/cpp/fast_geometry.cpp:c_calc_dihedral_angles"]}
{"id": "C56", "title": "Ghost exchange never deadlocks when every rank has something to send", "statement": "For any number of ranks and any schedule, buffered or synchronous sends: if in every iteration each rank has points for each existing neighbour, the exchanges never block, terminate on all ranks, leave no message behind, and each rank gets, iteration by iteration, exactly the points its upper and then its lower neighbour addressed to it.", "quantifier": "all numbers of ranks, all interleavings", "why_tests_cant": "Schedules cannot be enumerated by tests.", "anchors": ["SeismicMesh/migration/migration.py:exchange"]}
{"id": "C57", "title": "Ghost exchange can hang or mix iterations when a rank has nothing to send", "statement": "One exchange can complete exactly when no rank has anything to send or every rank has something for every neighbour. Otherwise a rank that has something to send next to one that has nothing for it blocks for ever in this exchange; if the idle neighbour goes on to the next iteration, the two ranks can receive each other's points of different iterations.", "quantifier": "existence of schedules/inputs", "why_tests_cant": "Depends on data distribution and schedule.", "anchors": ["SeismicMesh/migration/migration.py:exchange"]}
{"id": "C58", "title": "Aggregation preserves every rank's mesh", "statement": "On rank 0 aggregate returns all ranks' vertices in rank order and all their entities renumbered such that each entity has the same vertex coordinates as on its rank.", "quantifier": "any number of ranks and local meshes", "why_tests_cant": "Universal over partitions.", "anchors": ["SeismicMesh/migration/migration.py:aggregate"]}
{"id": "C59", "title": "Export tables are consistent", "statement": "If at least one vertex is sent to nobody, the table built for the ghost exchange starts with the numbers of points for the lower and the upper neighbour, followed by exactly those points in vertex order; each vertex is sent to at most one neighbour, decided by the first of its elements, in element order, whose circumball is found to meet a neighbour box (lower box first); exchanging such tables gives each rank exactly the points its neighbours selected.", "quantifier": "every local mesh and neighbour boxes, every number of ranks and schedule", "why_tests_cant": "Universal.", "anchors": ["SeismicMesh/migration/cpp/cpputils.cpp:c_where_to2", "SeismicMesh/migration/cpp/cpputils.cpp:c_where_to3", "SeismicMesh/migration/migration.py:enqueue"]}
{"id": "C60", "title": "Export table buffer is too small", "statement": "The buffer holding the export table has 2 (3D: 3) entries fewer than the array view returned to Python, so building the view always reads past its end, and if every vertex is exported the last row is also written past its end.", "quantifier": "every local mesh", "why_tests_cant": "Undefined behaviour that usually goes unnoticed.", "anchors": ["SeismicMesh/migration/cpp/cpputils.cpp:c_where_to2", "SeismicMesh/migration/cpp/cpputils.cpp:where_to2"]}
{"id": "C61", "title": "Ghost selection can miss needed vertices", "statement": "Only vertices of non-degenerate elements whose circumball meets the neighbour's box are sent, and every vertex of an element whose circumcircle and own bounding box meet neighbour boxes is sent to one neighbour; but a vertex whose incident circumballs meet both neighbour boxes is sent to one of them only, and an element whose own bounding box misses both neighbour boxes is ignored even if its circumball meets one.", "quantifier": "existence", "why_tests_cant": "Geometric corner cases.", "anchors": ["SeismicMesh/migration/cpp/cpputils.cpp:c_where_to2"]}
{"id": "C62", "title": "Block decomposition covers all points", "statement": "For axis 0 or 1 (in exact arithmetic), every point is in at least one block, in two only when it lies exactly on a common block face, blocks are ordered along the split direction, and each block's extent is the tight bounding box of its points. Equal-width slabs without points are dropped, so fewer blocks than requested may be returned.", "quantifier": "all point sets and block counts", "why_tests_cant": "Universal.", "anchors": ["SeismicMesh/decomp/blocker.py:blocker"]}
{"id": "C63", "title": "Block decomposition with axis 2 duplicates points", "statement": "With axis=2 the decomposition produces overlapping blocks: every point in the last of num_blocks equal slices along y belongs to at least num_blocks blocks, and more than the requested number of blocks can be returned.", "quantifier": "existence", "why_tests_cant": "Needs the unused option.", "anchors": ["SeismicMesh/decomp/blocker.py:blocker"]}
{"id": "C64", "title": "User points and sizing are split along different axes", "statement": "For the same axis option the point decomposition splits along one coordinate and the sizing-function localisation along another, so a rank can own points outside the grid of its local sizing function.", "quantifier": "existence", "why_tests_cant": "Multi-rank only.", "anchors": ["SeismicMesh/decomp/blocker.py:blocker", "SeismicMesh/migration/migration.py:localize_sizing_function", "SeismicMesh/generation/mesh_generator.py:_user_defined_points"]}
{"id": "C65", "title": "Initial grid covers the box with spacing at least h0", "statement": "The staggered grid contains no point twice and no two points closer than h0, it contains the lower corner and stays below the upper limits plus 1.5 h0, and every point of the box is within h0/2 (max-norm) of a grid point.", "quantifier": "all boxes and h0>0, 2D and 3D", "why_tests_cant": "Universal over reals.", "anchors": ["SeismicMesh/generation/utils.py:create_staggered_grid", "SeismicMesh/generation/utils.py:odd"]}
{"id": "C66", "title": "Parallel initial points", "statement": "Grids of different ranks never share a point and each keeps spacing h0. In one row, the first point of rank 1 is exactly h0 after the last of rank 0; between later ranks the gap is more than h0/2 and at most 1.5 h0, and every fraction between 1/2 and 1 of h0 occurs, so points of different ranks can be closer than h0. With blocks not wider than h0/2 only rank 0 has points.", "quantifier": "all sizes, boxes and h0", "why_tests_cant": "Universal; failure needs three ranks.", "anchors": ["SeismicMesh/generation/utils.py:make_init_points"]}
{"id": "C67", "title": "Local sizing grids cover the local initial points", "statement": "The local sizing grid sent to a rank covers, along every axis, all initial points that rank creates.", "quantifier": "all sizes, ranks, boxes, h0", "why_tests_cant": "Universal.", "anchors": ["SeismicMesh/migration/migration.py:localize_sizing_function", "SeismicMesh/generation/utils.py:make_init_points"]}
{"id": "C68", "title": "Iteration budget", "statement": "A serial generate_mesh whose max_iter is a positive whole number ends after at most max_iter triangulations, and after exactly max_iter unless it raises an error; a negative max_iter is refused before any triangulation; with max_iter = 0 or a fraction (both accepted) no mesh is ever returned and the call can run forever.", "quantifier": "every domain, sizing and max_iter; every behaviour of the triangulation back end", "why_tests_cant": "Non-termination cannot be tested.", "anchors": ["SeismicMesh/generation/mesh_generator.py:generate_mesh"]}
{"id": "C69", "title": "Returned cells are inside the domain", "statement": "Every row returned by a serial generate_mesh names existing vertices, no two rows are the same cell, and every cell has its centroid at signed distance below -0.001*h0 of the domain meshed; vertices belonging to no cell may remain in the returned vertex array.", "quantifier": "every domain function and back-end behaviour", "why_tests_cant": "Universal over domains.", "anchors": ["SeismicMesh/generation/mesh_generator.py:generate_mesh", "SeismicMesh/generation/mesh_generator.py:_remove_triangles_outside"]}
{"id": "C70", "title": "Forces balance", "statement": "In generate_mesh's force step (size function positive) the forces on all vertices sum to zero; the force on a vertex is the sum over the vertices it shares a cell with, each counted once, of the connecting vector times the bar's relative shortage max(0, desired-length)/length, so bars at or above their desired length exert none and the others push; vertices of no cell get none; fixed vertices do not move, the others move by delta_t times their force. Desired lengths are L0mult*s*fh(midpoint) where s makes the unmultiplied desired lengths have the same sum of dim-th powers as the actual lengths, hence with L0mult = 1.2 / 1.1 every mesh with a bar has a compressed bar: the forces cannot vanish by all bars being long enough.", "quantifier": "every mesh and sizing function", "why_tests_cant": "Universal.", "anchors": ["SeismicMesh/generation/mesh_generator.py:_compute_forces", "SeismicMesh/generation/utils.py:dense", "SeismicMesh/generation/mesh_generator.py:generate_mesh"]}
{"id": "C71", "title": "Projection onto the boundary", "statement": "The Newton projection of each iteration moves exactly the points at positive signed distance (for a subdomain: positive and below hmin/1.5) and leaves the others untouched; where the signed distance is affine around the point with |gradient|^2 >= deps the point lands on the boundary, at its nearest point; with |gradient|^2 < deps the fraction 1-|gradient|^2/deps of the distance remains; no move exceeds distance/sqrt(deps); a locally constant function leaves the point outside. The final level-set improvement moves boundary vertices only, from both sides, keeps those already on the level set, puts those of an affine function on it, and raises IndexError on a mesh without boundary.", "quantifier": "all points and domains", "why_tests_cant": "Universal.", "anchors": ["SeismicMesh/generation/mesh_generator.py:_project_points_back_newton", "SeismicMesh/generation/mesh_generator.py:_improve_level_set_newton"]}
{"id": "C72", "title": "A size function with another box replaces the domain", "statement": "When edge_length is a size function object whose box differs from the domain's box, the shape passed as domain has no influence beyond its box and corners, and the cells returned lie (centroids) in the smallest box containing both boxes; when the boxes agree, or edge_length is a number or plain function, the user's own signed distance decides. Boxes of dimensions other than 2 and 3 are refused.", "quantifier": "all domains and size functions", "why_tests_cant": "Universal decision rule.", "anchors": ["SeismicMesh/generation/mesh_generator.py:generate_mesh", "SeismicMesh/generation/mesh_generator.py:_minmax", "SeismicMesh/generation/mesh_generator.py:_unpack_sizing"]}
{"id": "C73", "title": "Sliver removal result", "statement": "If sliver_removal returns before the iteration cap, no returned cell has a defined dihedral angle outside the bounds (provided fix_mesh merges no two different vertices); with max_iter a positive whole number it ends after at most max_iter triangulations; stopped by the cap it may return slivers; with max_iter 0 or a fraction it can run forever; with the default bounds only angles below 10 degrees count (the documented upper bound of 170 is 180); ranks other than 0 return immediately and 2D points are refused.", "quantifier": "every back-end behaviour", "why_tests_cant": "Universal over back-end behaviours.", "anchors": ["SeismicMesh/generation/mesh_generator.py:sliver_removal"]}
{"id": "C74", "title": "Vertex numbering of the triangulation is consistent", "statement": "After reading the vertices of the triangulation, the cell table read next refers, by index into that vertex array, to the actual corners of each cell, whatever sequence of insertions, moves and removals preceded. Reading the cells without reading the vertices first can yield indices beyond the vertex array (after inserting a repeated point) or one number for two vertices (after a removal and an insertion).", "quantifier": "every history of operations", "why_tests_cant": "History-dependent.", "anchors": ["SeismicMesh/generation/cpp/delaunay_class.cpp:get_finite_vertices", "SeismicMesh/generation/cpp/delaunay_class.cpp:get_finite_cells", "SeismicMesh/generation/mesh_generator.py:_get_topology"]}
{"id": "C75", "title": "Option validation", "statement": "Boxes containing integer entries are rejected, a verbosity below zero (or strictly between 0 and 1) is rejected, negative h0 and max_iter are rejected but zero is accepted; the merged box is the smallest box containing both given boxes when they have the same dimension (otherwise the longer one is silently truncated).", "quantifier": "all options", "why_tests_cant": "Universal decision rules.", "anchors": ["SeismicMesh/generation/mesh_generator.py:_check_bbox", "SeismicMesh/generation/mesh_generator.py:_select_verbosity", "SeismicMesh/generation/mesh_generator.py:_minmax", "SeismicMesh/generation/mesh_generator.py:generate_mesh"]}
{"id": "C76", "title": "Tetrahedron quality looks at one face only", "statement": "For a tetrahedron simp_qual equals the quality of the triangle of its first three corners, whatever the fourth is: a flat tetrahedron can have quality 1.", "quantifier": "every tetrahedron", "why_tests_cant": "Universal over the fourth corner.", "anchors": ["SeismicMesh/geometry/utils.py:simp_qual"]}
{"id": "C77", "title": "Ghost vertices are deleted by position", "statement": "After a parallel iteration a rank deletes as many trailing vertices as it received. If all received points were inserted after its own vertices, exactly its own vertices remain; each received point that coincides with a vertex already present costs it one of its own vertices; and a rank that had nothing to exchange deletes its own last vertex.", "quantifier": "all vertex lists and received points", "why_tests_cant": "Depends on the communication pattern of every iteration.", "anchors": ["SeismicMesh/generation/mesh_generator.py:generate_mesh", "SeismicMesh/generation/mesh_generator.py:_add_ghost_vertices", "SeismicMesh/migration/migration.py:exchange"]}
{"id": "C78", "title": "Rounding makes the block decomposition drop points", "statement": "In binary64 arithmetic the tolerance added around the points is lost: when the x coordinates of 2-D points range exactly over [-1,2], splitting along axis 0 with any number of blocks returns blocks none of which contains a point with x=2.", "quantifier": "every point set with that x range and every number of blocks", "why_tests_cant": "Floating-point behaviour for every input set.", "anchors": ["SeismicMesh/decomp/blocker.py:blocker"]}
{"id": "C79", "title": "User points are distributed to the ranks or all ranks hang", "statement": "With user-supplied points on several ranks: if the decomposition yields at least as many blocks as ranks, under every schedule the distribution completes without deadlock and rank r ends with block r, its local sizing function and all extents, so for axis 0 or 1 (exactly as many blocks as ranks) every user point is on some rank; if the decomposition raised or yielded fewer blocks than ranks (an empty slab), under no schedule does any rank other than 0 ever get through.", "quantifier": "all points, ranks, schedules and buffering decisions", "why_tests_cant": "Interleavings and deadlock.", "anchors": ["SeismicMesh/migration/migration.py:localize_points", "SeismicMesh/migration/migration.py:localize_sizing_function", "SeismicMesh/generation/mesh_generator.py:_user_defined_points", "SeismicMesh/decomp/blocker.py:blocker"]}
{"id": "C80", "title": "With axis 2 the ranks hold the slabs along z and repeated points", "statement": "For 3-D points and axis=2 the first blocks returned are the non-empty equal-width slabs along z, which contain every point; every further block (the ones higher ranks would get when some slab is empty) contains only points that lower-numbered blocks contain.", "quantifier": "all point sets and block counts", "why_tests_cant": "Universal over point sets.", "anchors": ["SeismicMesh/decomp/blocker.py:blocker", "SeismicMesh/migration/migration.py:localize_points"]}
{"id": "C81", "title": "Removing and moving vertices by index", "statement": "Indices given to remove and move refer to the vertex array last read: remove leaves exactly the points at the other indices; move turns the point set into the edited array, provided the new positions are pairwise different and free at the time of the call; exchanging the positions of two vertices loses one of them.", "quantifier": "every history of the triangulation object, all index lists and positions", "why_tests_cant": "History-dependent and universal over back-end behaviour.", "anchors": ["SeismicMesh/generation/cpp/delaunay_class.cpp:remove", "SeismicMesh/generation/cpp/delaunay_class.cpp:move", "SeismicMesh/generation/mesh_generator.py:sliver_removal"]}
{"id": "C82", "title": "Edges of selected cells are reported once", "statement": "get_edges of the triangulation object returns every edge of the cells selected by the mask exactly once (in one orientation) and nothing else, independently of memory addresses and of the iteration order of the hash set; a mask shorter than the number of cells is read out of bounds.", "quantifier": "every triangulation, mask, address assignment and traversal order", "why_tests_cant": "Address- and hash-order-dependent.", "anchors": ["SeismicMesh/generation/cpp/delaunay_class.cpp:get_edges", "SeismicMesh/generation/cpp/delaunay_class3.cpp:get_edges"]}
{"id": "C83", "title": "The size function between and beyond the velocity samples", "statement": "The callable in the SizeFunction returned by get_sizing_function_from_segy takes the computed size at every sample of the (padded) grid and the volume-weighted mean of the corner sizes in between; inside the returned box it therefore stays within [hmin, hmax] (not below hmin when a timestep is given). Outside the box it extrapolates linearly: sizes below hmin, above hmax and negative ones occur.", "quantifier": "all velocity models, options and query points", "why_tests_cant": "Universal over models and query points.", "anchors": ["SeismicMesh/sizing/mesh_size_function.py:get_sizing_function_from_segy", "SeismicMesh/sizing/mesh_size_function.py:_build_sizing_function", "SeismicMesh/sizing/mesh_size_function.py:_get_vectors"]}
{"id": "C84", "title": "Gradation of the continuous size function", "statement": "If the limiter converged, the size function is Lipschitz with constant (grade*elen + tol)/spacing along each axis, elen being the depth extent divided by the number of depth samples: along depth this is the requested grade (times (nz-1)/nz, plus tolerance); along the other axes, where the sample spacing differs, the requested grade can be violated by any factor of the spacings.", "quantifier": "all velocity models and pairs of query points", "why_tests_cant": "Universal over models and pairs of points.", "anchors": ["SeismicMesh/sizing/mesh_size_function.py:get_sizing_function_from_segy", "SeismicMesh/sizing/mesh_size_function.py:_enforce_gradation_sizing", "SeismicMesh/sizing/mesh_size_function.py:_build_sizing_function"]}
{"id": "C85", "title": "Initial points of the mesh generator", "statement": "Without user points, generation starts from the fixed points followed by a selection, in order, of the staggered-grid points at signed distance below geps; grid point i is selected exactly when its random number is below (r/size)^dim, r the smallest size over these points, so all points of smallest size (all of them for a constant size) are used; r0m_is_h0 can only drop points if h0 is a lower bound of the sizes; user points are used unaltered, without corners or fixed points; if no grid point qualifies the call fails whatever fixed points were given.", "quantifier": "all domains, sizes, options and random numbers", "why_tests_cant": "Universal over random numbers and domains.", "anchors": ["SeismicMesh/generation/mesh_generator.py:_initialize_points", "SeismicMesh/generation/mesh_generator.py:_generate_initial_points", "SeismicMesh/generation/mesh_generator.py:_user_defined_points"]}
{"id": "C86", "title": "Fixed points during and after the iterations", "statement": "In a run on one process, a fixed point (option pfix or domain corner) that is among the starting points and lies in the closed domain (and inside or at least 2/3 h0 outside every subdomain) is a vertex of every triangulation of the run, whatever the forces do; with user points that do not contain it, the nearest vertex never gets further away (when projections leave it alone). A fixed point outside the domain is pulled onto the boundary at the first iteration. The last stage (merging, clean-up, smoothing, level-set improvement) ignores the fixed points: in 3D one on the level set survives if it is a corner of a kept cell, and is lost if it is not.", "quantifier": "all runs, back-end behaviours, fixed points and numbers of iterations", "why_tests_cant": "An invariant over any number of iterations and any triangulation.", "anchors": ["SeismicMesh/generation/mesh_generator.py:generate_mesh", "SeismicMesh/generation/mesh_generator.py:_closest_node", "SeismicMesh/generation/mesh_generator.py:_unpack_pfix"]}
{"id": "C87", "title": "Velocity files: reading SEG-Y and writing hdf5", "statement": "A file whose name ends in exactly '.segy' is read with sample q of trace j in row nz-1-q, column j; any other name is read as raw samples and needs nz, nx and ny. write_velocity_model writes, on rank 0 only, one file named after ofname (or the input) with '.hdf5' appended, holding the float32 samples read; with the same box and padding options the array has the extents of the size function, and the same velocities if these are in m/s and none is below 0.001. The units option is ignored: a km/s model is labelled 'm/s' and its samples are a thousand times smaller than those the size function was computed from; a negative padding is accepted here although the size function refuses it.", "quantifier": "all file contents, names, options and ranks", "why_tests_cant": "Universal over file contents and options.", "anchors": ["SeismicMesh/sizing/mesh_size_function.py:write_velocity_model", "SeismicMesh/sizing/mesh_size_function.py:read_velocity_model", "SeismicMesh/sizing/mesh_size_function.py:_read_segy"]}
{"id": "C88", "title": "The outcome of the parallel code does not depend on message timing", "statement": "The parallel code only uses blocking messages between named ranks, so for all schedules of the ranks and all buffering decisions of the message layer: what a rank returns is the same in all runs in which it returns; if one run ends, every run is finite and can be completed to the same results by a layer that buffers; if a run ends without any buffering, then every run ends after a bounded number of steps with the same results and no message left; if a run gets stuck with a rank waiting, that rank returns in no run. A program in which two ranks both send first depends on buffering. A receive under a tag its sender does not use never completes.", "quantifier": "all schedules, buffering decisions, numbers of ranks and data-dependent programs of blocking sends and receives", "why_tests_cant": "Schedules and buffering are not controlled by a test.", "anchors": ["SeismicMesh/migration/migration.py:exchange", "SeismicMesh/migration/migration.py:aggregate", "SeismicMesh/generation/mesh_generator.py:generate_mesh"]}
{"id": "C89", "title": "Parallel generate_mesh computes the lock-step result under every schedule", "statement": "On several processes, if every rank has starting points, if in each iteration either every rank has points for each of its neighbours or no rank has any, if rank 0's movement check does not stop the run and every rank's last mesh can be cleaned, then every schedule and buffering ends, after a number of messages linear in iterations times ranks, with the same result: ranks advance in lock step, each triangulating its points, inserting the exported points of the rank above and then of the rank below (a rank exports to each neighbour exactly the vertices whose first cell near a neighbour touches that neighbour's box, unless it would export all), deleting the cells outside, moving, and dropping the inserted points again (a rank exporting nothing drops its last vertex instead); the ranks' meshes are joined in rank order and finished by rank 0. In every run only rank 0 returns a mesh, and every one of its cells has its centre at signed distance below -h0/1000. Fixed points and domain corners have no effect on several processes.", "quantifier": "all numbers of ranks, schedules, buffering decisions, back ends, domains, sizes and options", "why_tests_cant": "Schedules and buffering are not controlled by a test.", "anchors": ["SeismicMesh/generation/mesh_generator.py:generate_mesh", "SeismicMesh/generation/mesh_generator.py:_add_ghost_vertices", "SeismicMesh/migration/migration.py:exchange", "SeismicMesh/migration/migration.py:aggregate"]}
{"id": "C90", "title": "User points on several processes: nothing is exchanged at first", "statement": "On several processes with the points option (axis 0 or 1, exact arithmetic, no point on the border of two blocks) the extents of the blocks are tight and disjoint, so in the first iteration no rank has a vertex for a neighbour: nothing is received, and with max_iter >= 2 every rank loses the last of its own vertices as if it had been received. With max_iter = 1 the mesh handed to the last stage has, under every schedule, no cell whose corners lie in two blocks: a gap remains between the blocks.", "quantifier": "all point sets, numbers of ranks, domains, options, back ends and schedules", "why_tests_cant": "Universal over point sets and schedules.", "anchors": ["SeismicMesh/generation/mesh_generator.py:_user_defined_points", "SeismicMesh/generation/mesh_generator.py:_add_ghost_vertices", "SeismicMesh/decomp/blocker.py:blocker", "SeismicMesh/migration/migration.py:enqueue"]}
{"id": "C91", "title": "A rank that fails at the start leaves the others waiting for ever", "statement": "On several processes there is no agreed failure: if one rank has no starting points in its slab (it raises there), every rank that has some never returns, under every schedule and buffering; the same if the size function thins out all points of one rank but not those of another; and with user points that fill fewer blocks than there are processes, rank 0 fails with an index error and every other rank never returns.", "quantifier": "all numbers of ranks, domains, sizes, options, random numbers, schedules and buffering decisions", "why_tests_cant": "A hang under every schedule cannot be shown by running one.", "anchors": ["SeismicMesh/generation/mesh_generator.py:_generate_initial_points", "SeismicMesh/generation/mesh_generator.py:_form_extents", "SeismicMesh/generation/mesh_generator.py:_user_defined_points", "SeismicMesh/migration/migration.py:localize_points"]}
{"id": "C92", "title": "The mesh linter removes the losers of all reported overlaps and then finds none", "statement": "For a mesh without repeated or unused vertices, linter (option perform_checks) returns only cells of its input, with the same corner points; a cell is dropped exactly if it loses against a neighbour (a cell with a common vertex that contains its centre, unless that one has the lower quality; or whose centre it contains, if its own quality is the lower one), or, in 2D only, if its quality is below min_qual (and it is at the boundary); on the returned mesh the overlap check reports nothing. In 3D it returns exactly if some cell loses against no other. Two cells of equal quality that contain each other's centre are both deleted, which leaves a hole. The check compares cells by vertex number, so on the joined mesh of several ranks cells of different ranks are never compared.", "quantifier": "all meshes, qualities, orders chosen by argsort, numbers of ranks", "why_tests_cant": "Universal over meshes.", "anchors": ["SeismicMesh/geometry/utils.py:linter", "SeismicMesh/geometry/utils.py:do_any_overlap", "SeismicMesh/generation/mesh_generator.py:_termination"]}
{"id": "C93", "title": "generate_mesh on several processes never returns a mesh when the last exchange of points is one-sided", "statement": "Suppose the processes of a generate_mesh call run in lock step (in every iteration before the last one every process has points for every neighbour, or none has any) and in the last iteration some process b has points to export while its neighbour a has none for b. Then b waits for a message that a never sends: b never returns, and process 0 never returns a mesh, under every scheduling and buffering of the messages.", "quantifier": "all domains, size functions, options, numbers of processes, triangulation back ends, pairs of neighbours and schedules", "why_tests_cant": "a hang is a statement about all schedules and all continuations of a run; a test that times out shows one of them, and the exports depend on the triangulations", "anchors": ["SeismicMesh/migration/migration.py:exchange", "SeismicMesh/migration/migration.py:enqueue", "SeismicMesh/migration/migration.py:aggregate", "SeismicMesh/generation/mesh_generator.py:generate_mesh"]}
{"id": "C94", "title": "Sizes from the velocity gradient", "statement": "With grad > 0 the size function from the velocity gradient is computed exactly when the velocity varies along at least one axis whose stencil has two samples or more (in particular never for stencil_size < 2); all sizes then lie between grad/1.1 and 10*grad, and the size is 10*grad at every sample whose whole averaging window sees a single velocity. At the borders the samples are continued by mirroring, the border sample included. Otherwise the sizes are not finite numbers.", "quantifier": "all velocity arrays, stencils and grad", "why_tests_cant": "ranges over all arrays and window sizes, including windows larger than the array with reflection at its borders", "anchors": ["SeismicMesh/sizing/mesh_size_function.py:_gradient_sizing"]}
{"id": "C95", "title": "Which calls of get_sizing_function_from_segy succeed", "statement": "For a grid with positive extents and positive hmin and hmax, the sizes are computed if and only if: water samples (below 0.001 m/s after unit conversion, not in row 0) come with vp_water between 1300 and 1800; when wl or grad is positive neither is negative, wl > 0 comes with freq > 0 and grad > 0 with a velocity that varies along an axis with a stencil of two samples; cr_max, dt and space_order are all positive with space_order >= 1, or one of them is zero; grade >= 0; domain_pad >= 0, with a known pad style when positive. Every other call raises ValueError or computes with inf/NaN. A box that has not four or six entries raises ValueError. hmin > hmax is not rejected: all sizes are then hmax, below the declared minimum.", "quantifier": "all options, boxes and velocity arrays", "why_tests_cant": "ranges over all combinations of eleven numeric options and all arrays", "anchors": ["SeismicMesh/sizing/mesh_size_function.py:get_sizing_function_from_segy", "SeismicMesh/sizing/mesh_size_function.py:_wavelength_sizing", "SeismicMesh/sizing/mesh_size_function.py:_enforce_courant_sizing", "SeismicMesh/sizing/mesh_size_function.py:_enforce_gradation_sizing", "SeismicMesh/sizing/mesh_size_function.py:_build_domain_pad"]}
{"id": "C96", "title": "get_sizing_function_from_segy on several processes", "statement": "If the computation on rank 0 succeeds, then under every schedule all ranks finish with the same (padded) box and hmin; rank 0 holds the size function and all other ranks the constant function 1. If rank 0 raises (bad option value, unknown keyword, bad box), the other ranks wait for the box forever, under every schedule.", "quantifier": "all schedules, process counts, options and arrays", "why_tests_cant": "ranges over all interleavings and buffering decisions", "anchors": ["SeismicMesh/sizing/mesh_size_function.py:get_sizing_function_from_segy"]}
{"id": "C97", "title": "Which vertices fix_mesh merges", "statement": "In binary64, two vertices merged by fix_mesh differ in every coordinate by at most the snapping width (ptol times the largest extent of the mesh) up to rounding; two vertices that lie in the middle half of one cell of the snapping grid and have no coordinate of different sign are merged; but vertices of which one has a negative coordinate where the other has zero or a positive one are never merged, however close they are (the rounded coordinates are -0.0 and 0.0, which have different bytes): a mesh torn along a coordinate plane through the origin stays torn.", "quantifier": "every mesh with a positive snapping width, every ptol, every pair of vertices; every width of the tear", "why_tests_cant": "the claim is about all pairs of floating point coordinates; tests use a few well separated or identical vertices", "anchors": ["SeismicMesh/geometry/utils.py:fix_mesh", "SeismicMesh/geometry/utils.py:unique_rows"]}
{"id": "C98", "title": "Disk and Ball distances in double precision", "statement": "Without transformations, the signed distance Disk and Ball compute in double precision for a point differs from its exact distance D - r (D the distance to the centre) by at most 2^-48*(D+|r|) + 2^-533, barring overflow. So a point whose exact distance exceeds that bound is put on the right side of the surface. Nearer points may not be: every point (1, t) with 0 < |t| <= 2^-27 is strictly outside the unit disk, and its computed distance is 0.", "quantifier": "all centres, radii and points", "why_tests_cant": "a claim about every floating point input: the sampled points of a test say nothing about cancellation for other centres and radii", "anchors": ["SeismicMesh/geometry/signed_distance_functions.py:_ddisk", "SeismicMesh/geometry/signed_distance_functions.py:dball", "SeismicMesh/geometry/signed_distance_functions.py:Disk", "SeismicMesh/geometry/signed_distance_functions.py:Ball"]}
{"id": "C99", "title": "Coarser requirements give coarser sizes, up to the tolerance of the grading", "statement": "Compare two calls of get_sizing_function_from_segy on the same box of which the second asks for no finer resolution: wl and freq not larger (and used in both calls or in neither), grad, hmin, hmax, dt and space_order not smaller, cr_max not larger, same padding; and the velocities are the same, or nowhere smaller if there is no water and grad is 0. If the second call does not grade, none of its sizes is smaller than in the first. If it grades with a grade not smaller than the first, its sizes are at most the number of grid steps times the tolerance (min size * sqrt(1e-9) on convergence) smaller; and this happens: raising a velocity can lower the size there. Omitting both wl and grad is not a coarser requirement: all sizes are then hmin.", "quantifier": "all pairs of calls: options, boxes and velocity arrays", "why_tests_cant": "a relation between the results of two runs over all pairs of inputs; the violation found needs a field within 3e-5 of the limit", "anchors": ["SeismicMesh/sizing/mesh_size_function.py:get_sizing_function_from_segy", "SeismicMesh/sizing/mesh_size_function.py:_wavelength_sizing", "SeismicMesh/sizing/mesh_size_function.py:_enforce_courant_sizing", "SeismicMesh/sizing/mesh_size_function.py:_enforce_gradation_sizing", "SeismicMesh/sizing/cpp/FastHJ.cpp:c_limgrad"]}
{"id": "C100", "title": "In double precision fix_mesh orients every cell that is not thinner than the rounding", "statement": "With binary64 coordinates and arithmetic, the signed area simp_vol computes for a triangle lying in a box of sides X and Y is within 2^-50*X*Y + 2^-1073 of the exact one, and the signed volume of a tetrahedron in a box of sides X, Y, Z within 2^-49*X*Y*Z + 2^-1074*(1+X+Y+Z); so the sign is right whenever the exact value is larger than that, and every cell fix_mesh returns with fix_orientation is counter-clockwise or has a negative signed measure of at most that size. Within that margin the promise fails: there is a triangle of three distinct, unmerged vertices with a negative area that fix_mesh returns unchanged because the computed area is 0.", "quantifier": "every mesh of triangles or tetrahedra with binary64 coordinates, every duplicate-removal order, every setting of ptol and delete_unused; every box around each cell", "why_tests_cant": "Which cells come near the rounding margin depends on the coordinates; a test only sees cells it builds, and a wrongly oriented sliver shows up as a negative Jacobian in a solver, not in the mesher.", "anchors": ["SeismicMesh/geometry/utils.py:simp_vol", "SeismicMesh/geometry/utils.py:fix_mesh"]}
{"id": "C101", "title": "What a round of sliver_removal moves", "statement": "In each round of sliver_removal with preserve=False, the only vertices that move are first corners of cells kept as slivers (centre inside by more than geps, some dihedral angle outside the bounds). Of several slivers with the same first corner the last one decides. The vertex moves by exactly step*h0 along its radius of that sliver's circumscribed sphere: away from the centre when corner and centre lie on the same side of the opposite face, towards the centre when they lie on different sides. The step starts at 1/10 divided by gamma; it is divided by gamma when the number of slivers fell, multiplied by gamma when it rose, and divided by 4/5 when it stayed the same, so with the default gamma of 1 it is 1/10*(5/4)^(number of rounds that left the count unchanged) and never shrinks. After i rounds no vertex is further than 2/5*((5/4)^i - 1)*h0 from its start (triangulations that keep their points, no degenerate direction). When the centre of the sphere lies in the plane of the opposite face the gradient is zero, the direction is 0/0 and the vertex becomes NaN; there are slivers with positive volume for which this happens.", "quantifier": "all inputs, triangulation back ends, options with preserve=False and numbers of rounds", "why_tests_cant": "The geometry of every sliver, the order of the cells and the whole history of sliver counts enter; tests see a few runs and no exact degenerate case.", "anchors": ["SeismicMesh/generation/mesh_generator.py:sliver_removal", "SeismicMesh/geometry/cpp/fast_geometry.cpp:c_calc_circumsphere_grad"]}
{"id": "C102", "title": "Which corner points become fixed points", "statement": "With one process, in 2D (any size) and in 3D with a scalar size, generate_mesh fixes every corner point of the domain object except those inside it deeper than 1000*sqrt(2^-52)*h0; corners outside are kept however far away they are. In 3D with a size function or callable no corner is fixed. The corners of Union, Intersection and Difference are those of all operands. With sharp set operations a Union drops exactly the corners buried that deep in some operand, while Intersection and Difference drop none: a corner cut away by the other operand stays a fixed point outside the domain. A Rectangle rotated by an angle strictly between 0 and 90 degrees contributes the four corners of its bounding box, all outside it by at least sin*cos*(shorter side), and all are fixed. With a size function padded by domain_pad the rectangle meshed is the padded one: its corners are not fixed, the two upper corners of the unpadded box, now points of the top side, are.", "quantifier": "all domains, operand lists, angles, pads, sizes and options", "why_tests_cant": "Combines attributes set in constructors, set operations over any number of operands, transformations and the filter in generate_mesh; every corner and every relative position matters.", "anchors": ["SeismicMesh/generation/mesh_generator.py:generate_mesh", "SeismicMesh/geometry/signed_distance_functions.py:_gather_corners", "SeismicMesh/geometry/signed_distance_functions.py:_build_rotation", "SeismicMesh/sizing/mesh_size_function.py:_build_domain_pad"]}
{"id": "C103", "title": "Only the ratios of the size function matter", "statement": "On one process and with the default r0m_is_h0 (or with user points), multiplying a positive size function (plain function with the option h0, or size function object with its declared hmin) by any positive constant leaves the result of generate_mesh exactly as it was: the resolution is set by h0 / hmin, not by the values. In particular a constant function, whatever the constant, gives in 2D the mesh of edge_length = h0. With r0m_is_h0 the constant matters already for the starting points. sliver_removal ignores the values altogether.", "quantifier": "all domains, positive size functions, positive factors, options, triangulation results and random numbers, any number of iterations", "why_tests_cant": "the equality is between whole runs of unbounded length for all size functions and backends; tests compare single meshes", "anchors": ["SeismicMesh/generation/mesh_generator.py:_compute_forces", "SeismicMesh/generation/mesh_generator.py:_generate_initial_points", "SeismicMesh/generation/mesh_generator.py:generate_mesh", "SeismicMesh/generation/mesh_generator.py:sliver_removal"]}
{"id": "C104", "title": "Units of velocity, length and time in the size function", "statement": "In get_sizing_function_from_segy, units='km-s' is the same as 'm-s' with velocities times 1000, 'ft-s' the same as 'm-s' with velocities times 0.30 (not 0.3048: velocities and wavelength sizes are 125/127 of the true ones), and any other string means no conversion. If no velocity is below 1e-3, expressing all lengths (box, velocities, hmin, hmax, grad, domain_pad) in another unit gives the same sizes in that unit, Courant step, grading and padding included, provided hmax does not exceed 99999 in either unit; and changing the unit of time (velocities, freq, dt) changes no size. Water is replaced by a speed in m/s in every unit and 99999 is a hidden upper limit: with either the sizes are not those of the other unit.", "quantifier": "all velocity arrays, boxes, options, stencils and positive unit factors", "why_tests_cant": "an equality between two runs for every array, factor and number of grading sweeps", "anchors": ["SeismicMesh/sizing/mesh_size_function.py:get_sizing_function_from_segy", "SeismicMesh/sizing/mesh_size_function.py:_wavelength_sizing", "SeismicMesh/sizing/mesh_size_function.py:_gradient_sizing", "SeismicMesh/sizing/mesh_size_function.py:_enforce_courant_sizing", "SeismicMesh/sizing/mesh_size_function.py:_enforce_gradation_sizing", "SeismicMesh/sizing/mesh_size_function.py:_build_domain_pad"]}
{"id": "C105", "title": "Mirrored velocity models", "statement": "Reversing the velocity array along x, along y (3D) or along both reverses the sizes: without grading, get_sizing_function_from_segy on the reversed array ends the same way (same error, or the same box and exactly the reversed sizes and velocities, padding of every style included), provided no gradient sizing is asked for or the stencil along each reversed axis is an odd number of samples (or off). With grading and no padding the two results agree, after reversal, up to the tolerance to which each is graded, once per grid step. The default stencil of ten samples is even and its window is not centred on the sample: there the sizes of a reversed model are not the reversed sizes (three samples 1000, 1000, 2000 m/s against 2000, 1000, 1000).", "quantifier": "all arrays (2D and 3D), options, boxes and stencils; reversal of x, y or both", "why_tests_cant": "Relates two runs on every input; the even window only shows on particular data.", "anchors": ["SeismicMesh/sizing/mesh_size_function.py:get_sizing_function_from_segy", "SeismicMesh/sizing/mesh_size_function.py:_gradient_sizing", "SeismicMesh/sizing/mesh_size_function.py:_build_domain_pad", "SeismicMesh/sizing/cpp/FastHJ.cpp:c_limgrad"]}
{"id": "C106", "title": "Changing the unit of length changes the mesh only by that factor", "statement": "If every length given to generate_mesh (domain, bounding box, sizes, h0, fixed and initial points, subdomains) is multiplied by c > 0, the result is the same mesh with every coordinate multiplied by c: same cells, same number of iterations, same exception or non-termination. This needs the called libraries to commute with the scaling (the triangulation of the scaled points is the scaled triangulation, np.unique lists the merged vertices in the corresponding order) and that the two places where the code compares quantities of different units are not met: an edge of length exactly 0 (replaced by 2.2e-16 in any unit), and a squared slope of a distance function at a vertex being moved to the boundary that is below sqrt(eps)*h0 in one of the units (the slope has no unit, the floor is a length). Where that floor is met the claim is false: one and the same call returns an empty mesh in one unit and a cell in another. sliver_removal has the property without those conditions unless preserve=True. Rectangles, cubes, disks and balls scale with their parameters.", "quantifier": "all c > 0, all libraries, domains, sizes, options, iteration counts; all numbers of iterations still to run", "why_tests_cant": "a relation between two whole runs, for all inputs and all scale factors; a test compares finitely many pairs, and floating point and CGAL ties blur the comparison", "anchors": ["SeismicMesh/generation/mesh_generator.py:generate_mesh", "SeismicMesh/generation/mesh_generator.py:sliver_removal", "SeismicMesh/generation/mesh_generator.py:_compute_forces", "SeismicMesh/generation/mesh_generator.py:_project_points_back_newton", "SeismicMesh/generation/mesh_generator.py:_improve_level_set_newton", "SeismicMesh/geometry/utils.py:fix_mesh"]}
{"id": "C107", "title": "generate_mesh and sliver_removal as called: ignored keywords, defaults, order, refusals", "statement": "On one process, with recognised option names only: two calls of generate_mesh that differ only in axis, gamma, preserve, the dihedral bounds, domain= or edge_length=, in h0 when the size is a number or a SizeFunction, in bbox when the domain (and every subdomain) brings its own box, in seed and r0m_is_h0 when points are given, or in mesh_improvement when subdomains are given or the mesh is 3D, have the same outcome (mesh, error, number of triangulations); so have calls that differ in the order of keywords or in an accepted value of verbose, and leaving an option out is the same as passing its documented default. sliver_removal ignores the documented pfix and axis and all options of the initial points; leaving max_dh_angle_bound out means 180 degrees, not the documented 170, and there is a mesh on which that matters. A full call hands exactly the given values to the algorithm; a value given for a flag counts as its Python truth value; an admissible seed (also True, False, None, a non-empty list of integers) decides nothing but the random numbers. Calls are refused before anything is triangulated for an unknown name, verbose other than 0 or >= 1, a non-number for max_iter, delta_t or geps_mult, a float seed (documented as allowed) or an integer seed outside 0..2^32-1 without points, an empty pfix without points, and a function among the subdomains without bbox=. A bbox given as a list next to a SizeFunction with the very same box drops the domain function: the box itself is meshed.", "quantifier": "for all domains, sizes, back ends, random streams, keyword lists and iteration budgets", "why_tests_cant": "The 20 keywords interact: a test compares one pair of calls, not all keyword lists, and the ignored values are arbitrary", "anchors": ["SeismicMesh/generation/mesh_generator.py:generate_mesh", "SeismicMesh/generation/mesh_generator.py:sliver_removal", "SeismicMesh/generation/mesh_generator.py:_parse_kwargs", "SeismicMesh/generation/mesh_generator.py:_select_verbosity", "SeismicMesh/generation/mesh_generator.py:_unpack_domain", "SeismicMesh/generation/mesh_generator.py:_unpack_sizing", "SeismicMesh/generation/mesh_generator.py:_unpack_pfix", "SeismicMesh/generation/mesh_generator.py:_generate_initial_points"]}
{"id": "C108", "title": "The initial grid in double precision", "statement": "With every operation rounded as in binary64, for spacings above 2^-1000 and boxes whose numbers are below 2^51 spacings: the initial grid is, coordinate by coordinate within 2^-50 of the size of the numbers, the exact staggered grid of a box with the same lower limits whose upper limits lie less than one spacing above the given ones and fall short of them by at most 2^-51 of the size of the numbers; hence every point of the box has a grid point within half a spacing (up to rounding) in each coordinate, grid points are a spacing apart (up to rounding), and no coordinate is below the lower limit. The number of rows per axis is the exact one or differs by one, the latter only if the extent is within rounding of a multiple of the spacing; both deviations happen: [1, 1.2] with spacing 0.1 gets four rows instead of three, [2^30, 2^30 + 25/2^22] with 33/2^24 gets four instead of five. If limits and spacing are multiples (below 2^50) of one power of two there is no rounding error at all.", "quantifier": "for all boxes in 2D and 3D and all spacings in range", "why_tests_cant": "Rounding depends on every bit of three numbers; tests see round boxes for which nothing happens", "anchors": ["SeismicMesh/generation/utils.py:create_staggered_grid", "SeismicMesh/generation/utils.py:make_init_points", "SeismicMesh/generation/mesh_generator.py:_generate_initial_points"]}
{"id": "C109", "title": "Mesh sizes in single and double precision", "statement": "get_sizing_function_from_segy computes in the precision of the velocity array (single by default for files) mixed with Python doubles. Without a time step every gridded size lies between hmin and hmax as rounded to that precision: exactly between them for double-precision velocities, up to one part in 2^24 for single-precision ones (and a call with single-precision velocities exists whose every size is below the hmin asked for). With wavelength sizing a size exceeds max(hmin, v/(freq*wl)) by at most a factor 1 + 4u, u = 2^-24 or 2^-53. With a time step and no grading the Courant number of every cell is at most (1 + 8u) times the target, cells more than 8u below the target keep their size, and no size is more than 9u below hmin; in 2D and double precision none is below hmin, in 3D one can be (hmin 208.2, dt 0.015, cr_max 0.9).", "quantifier": "every velocity array in either precision, every option set with ordinary magnitudes (2^-20 to 2^20 where a relative bound is claimed), every filter result", "why_tests_cant": "Rounding at the limits depends on the exact binary values of hmin, dt, cr_max and the velocities; tests use tolerances and a few round numbers.", "anchors": ["SeismicMesh/sizing/mesh_size_function.py:get_sizing_function_from_segy", "SeismicMesh/sizing/mesh_size_function.py:_wavelength_sizing", "SeismicMesh/sizing/mesh_size_function.py:_enforce_courant_sizing", "SeismicMesh/sizing/mesh_size_function.py:_enforce_gradation_sizing"]}
{"id": "C110", "title": "Number of padded layers in double precision", "statement": "domain_pad adds int(domain_pad / cell width) layers, the cell width being the rounded extent of the box over the number of cells. The result is the exact number whenever the exact quotient is not within 4 units of 2^-53 (relative) of a whole number, and never more than one off; it is exact for a whole number of cells when extent and cell width are representable. Otherwise a layer can be missing: with 110 rows over 1000 m a pad of 100 m is 11 rows, 10 are added, and the box still grows by 100 m.", "quantifier": "every pad, box extent and number of cells of ordinary magnitude", "why_tests_cant": "Truncation of a rounded quotient goes wrong only for particular combinations of extent and number of cells.", "anchors": ["SeismicMesh/sizing/mesh_size_function.py:_build_domain_pad", "SeismicMesh/sizing/mesh_size_function.py:_pad_it", "SeismicMesh/sizing/mesh_size_function.py:get_sizing_function_from_segy"]}
{"id": "C111", "title": "What perform_checks says about the returned mesh", "statement": "With perform_checks=True the linter (overlap test, orientation, quality of the boundary cells, manifold test) is applied to the mesh before the last step of generate_mesh, the projection of the boundary vertices onto the level set.  Of the mesh that was checked, the returned one keeps every vertex that is interior or already on the level set, and exactly the cells whose centre is still inside by h0/1000; so if the boundary vertices of the checked mesh were on the level set the returned vertices are the checked ones and no returned cell is clockwise.  In general this fails: there are runs, with checks on and no error, that return a clockwise triangle overlapping its neighbour, and runs that return no cell at all although the checked mesh was a single good triangle.", "quantifier": "every successful run of generate_mesh on one process with perform_checks=True", "why_tests_cant": "Universal over runs; the counterexamples show that the order of the last two steps matters.", "anchors": ["SeismicMesh/generation/mesh_generator.py:generate_mesh", "SeismicMesh/generation/mesh_generator.py:_termination", "SeismicMesh/generation/mesh_generator.py:_improve_level_set_newton", "SeismicMesh/geometry/utils.py:linter"]}
{"id": "C112", "title": "The gradient limiter is defined up to 2^31 - 2 grid nodes", "statement": "The limiter computes array sizes, node numbers and neighbours with 32-bit ints.  If the grid has at most 2^31 - 2 nodes no integer operation overflows, for any field, grade and number of sweeps, so the call does what it does with unbounded integers (C01-C06).  With more nodes (a cube of 1291 nodes a side) some operation overflows, which C++ leaves undefined.", "quantifier": "all grid shapes, fields, grades, rounding and sweep limits that are ints", "why_tests_cant": "Needs grids of billions of nodes; undefined behaviour cannot be observed reliably.", "anchors": ["SeismicMesh/sizing/cpp/FastHJ.cpp:c_limgrad", "SeismicMesh/sizing/cpp/FastHJ.cpp:sub2ind", "SeismicMesh/sizing/cpp/FastHJ.cpp:ind2sub"]}
{"id": "C113", "title": "A process that is killed never changes what the others return, and rank 0 returns no mesh without everybody", "statement": "Processes of a parallel run may be killed at any moment, and of the messages a killed process had handed over but that were not yet received, some final part may be lost. Whatever is killed and lost: (a) if a process returns, it returns exactly what it returns in every undisturbed run in which it returns, and such a run exists; (b) hence a mesh that generate_mesh returns in a disturbed run has only rows naming existing vertices, no cell twice, and only cells with their centre at signed distance below -h0/1000, and only rank 0 returns one; (c) for a call that ends undisturbed (the situation of C89), rank 0 returns only after the call of every other process has handed over its whole mesh and returned: if another process is killed inside its call, rank 0 never returns a mesh (it waits for ever or the launcher ends the job); it never returns a mesh with a part missing.", "quantifier": "all calls, numbers of processes, sets and moments of kills, lost messages, schedules and bufferings", "why_tests_cant": "a test can kill a process at a few moments only; kill points, losses and interleavings are unbounded", "anchors": ["SeismicMesh/generation/mesh_generator.py:generate_mesh", "SeismicMesh/migration/migration.py:aggregate", "SeismicMesh/migration/migration.py:exchange"]}
{"id": "C114", "title": "Where the vertices and cells of the returned mesh come from, and what mesh_improvement does", "statement": "On one process, let q, u be the vertices and cells of the last triangulation of a call of generate_mesh that returns (p, t). The returned mesh is a mesh (p1, t1) of which the last step only moved boundary vertices that were off the level set and dropped the cells whose centre is then not inside by h0/1000. Without smoothing (3D, subdomains given, or mesh_improvement=False), with or without checks, all vertices of p1 are vertices of q and, if fix_mesh merges no two of them, all cells of t1 are cells of u: no point is invented; and without checks t1 has every cell of u whose centre was inside by geps, except, in 2D, triangles of quality below 0.15. With max_iter=1, points= given and a triangulation of exactly the given points, all vertices of p1 are points of the user. With smoothing (2D, no subdomains, mesh_improvement=True) the cleaned part (p2, t2) of (q, u) is smoothed first: if the linear solver solves its system, boundary vertices of t2 keep their place, every other one sits at the average of its neighbours, and the vertices of p1 are these and no others.", "quantifier": "all domains, sizes, options, back ends (triangulation, solver, order of np.unique) and numbers of iterations", "why_tests_cant": "tests look at sizes of final meshes for a few domains; where every vertex comes from must hold for every run", "anchors": ["SeismicMesh/generation/mesh_generator.py:generate_mesh", "SeismicMesh/generation/mesh_generator.py:_termination", "SeismicMesh/generation/mesh_generator.py:_improve_level_set_newton", "SeismicMesh/geometry/utils.py:fix_mesh", "SeismicMesh/geometry/utils.py:laplacian2_fixed_point"]}
{"id": "C115", "title": "The numbering of a mesh does not matter to the mesh utilities (except in 3D quality)", "statement": "Calling the vertices of a mesh by other numbers (different vertices getting different numbers, the points numbered accordingly), listing its cells in another order and listing the corners of a cell in another order changes nothing but the numbers in what the mesh utilities return: get_boundary_edges, get_boundary_facets and get_boundary_vertices return the same edges, facets and vertices under their new names, is_manifold gives the same answer, unique_edges returns the same edges, get_boundary_entities lists the same cells, fix_mesh with delete_unused leaves the same set of points and the same cells, and delete_boundary_entities in 2D drops the same triangles. The last is false in 3D: the quality of a tetrahedron looks at its first three corners only, so the mesh made of the corner tetrahedron is kept or deleted by delete_boundary_entities with min_qual=0.9 depending on the order of the corners in its row.", "quantifier": "all meshes of triangles or tetrahedra, all renumberings, all row and corner orders, all outcomes of the unstable sort and of np.unique", "why_tests_cant": "the set of renumberings grows factorially with the mesh; a test tries a handful of orders", "anchors": ["SeismicMesh/geometry/utils.py:get_boundary_edges", "SeismicMesh/geometry/utils.py:get_boundary_vertices", "SeismicMesh/geometry/utils.py:get_boundary_entities", "SeismicMesh/geometry/utils.py:is_manifold", "SeismicMesh/geometry/utils.py:unique_edges", "SeismicMesh/geometry/utils.py:fix_mesh", "SeismicMesh/geometry/utils.py:delete_boundary_entities"]}
{"id": "C116", "title": "Parallel runs: the size a rank uses agrees with the size passed in, near the rank's slice", "statement": "On several processes, unless the size is a plain function, every rank works with its own interpolated copy of the size function, sampled by rank 0. That copy equals the user's sizes at the sampling nodes (h0 apart on every axis, from 3 h0 below the rank's slice to less than 3 h0 above it), and at every point from 3 h0 below to 2 h0 above the slice on each axis, in particular at every point the rank starts with, it lies between the smallest and the largest size the user's function takes at points whose coordinates differ by at most h0; so constants are reproduced exactly and with a gradation bound g (in the 1-norm) the error is at most g * dim * h0. Further away the copy is a linear extrapolation about which nothing holds: with sizes 1 and 2 only, rank 0 of two would use size -7 at a point of the domain.", "quantifier": "all domains, boxes, size functions, numbers of ranks, split axes, minimum sizes and points", "why_tests_cant": "the size function is an arbitrary user function and the sampled region depends on box, rank count and h0", "anchors": ["SeismicMesh/migration/migration.py:localize_sizing_function", "SeismicMesh/generation/mesh_generator.py:generate_mesh"]}
{"id": "C117", "title": "After the exchange of points a process sees everything in its padded box", "statement": "On several processes, after the exchange of points in an iteration a process holds every point of any process that lies in its own padded box, provided that non-neighbouring processes have no point there, every process has a vertex it keeps to itself, and no cell at a vertex of the process below that lies in the box reaches back to the box below that one. Consequently a cell whose circumscribed ball lies in the box is a Delaunay cell of the process exactly when it is one of all points together. Outside the box nothing is guaranteed: the boxes are padded along one axis only, and a circle through points of two processes, empty of all points, may go unnoticed because no point is exchanged.", "quantifier": "for every number of processes >= 2, every dimension 2 or 3, all local triangulations, all extents and every process", "why_tests_cant": "Depends on the positions of all points of all processes and on every neighbouring triangulation; a test fixes one partition and one mesh, and a missed cell shows up only as a slightly worse mesh.", "anchors": ["SeismicMesh/migration/cpp/cpputils.cpp:c_where_to2", "SeismicMesh/migration/migration.py:exchange", "SeismicMesh/migration/migration.py:enqueue", "SeismicMesh/generation/mesh_generator.py:generate_mesh"]}
{"id": "C118", "title": "get_sizing_function_from_segy as it is called", "statement": "get_sizing_function_from_segy called with velocity_data and the numbers of points of that array (or with a SEG-Y file and a 4-number box, or a raw file, its numbers of points and a 6-number box) returns exactly the size function of that array; with velocity_data the file name, byte_order, axes_order and axes_order_sort play no role, with SEG-Y also nz, nx and ny play none. Calls that do not fit: a missing nz, nx (with a 6-number box also ny) or an unknown keyword is refused; constant sizes (wl and grad not positive) with numbers of points that differ from the array are refused, unless a time step is given and each number is right or 1; but when wl or grad is positive a wrong nz is NOT noticed: the result is that of the right call with grade multiplied by (points of the array)/(nz given). A 3D array with a 4-number box is never accepted. A 2D array with a 6-number box is refused for constant sizes and otherwise silently treated as 2D, the returned object claiming the 3D box when the domain is not padded. A list instead of a tuple as box is refused exactly when the domain is not padded.", "quantifier": "every velocity array, file, file name, box of 4 or 6 numbers, nz/nx/ny (including None), keyword set, rounding of the grid vectors and smoothing filter", "why_tests_cant": "The outcome depends on the combination of array shape, box length, three optional counts, five switches and numpy's broadcasting rules; tests call the function with matching arguments only.", "anchors": ["SeismicMesh/sizing/mesh_size_function.py:get_sizing_function_from_segy", "SeismicMesh/sizing/mesh_size_function.py:_build_sizing_function", "SeismicMesh/sizing/mesh_size_function.py:_enforce_courant_sizing", "SeismicMesh/sizing/mesh_size_function.py:_initialize_sizing_function"]}
{"id": "C119", "title": "How fast the function of a domain changes, and how far a mesh can stick out", "statement": "For every domain built from Disk, Rectangle, Ball, Cube, Torus, Prism, Cylinder (rotated, translated, stretched by vectors of norm at least 1/L) by sharp or smooth (k >= 0) Union, Intersection and Difference nested to any depth, and by Repeat of mirror-symmetric domains, eval has slope at most L: |eval(x) - eval(y)| <= L |x - y| (L = 1 when nothing is shrunk). Hence eval(x) <= -L r means the ball of radius r around x is in the domain, eval(x) > L r that it is outside, and every way from inside to outside crosses the zero set. The cells returned by generate_mesh therefore stick out by less than L times the distance of their corners from their centre. Two things break the slope: a stretch vector shorter than 1 makes eval overestimate distances, and Repeat of a domain that is not mirror-symmetric jumps at the borders of the cells.", "quantifier": "every nested set expression, parameters, transformations, smoothness, pair of points, segment; every mesh returned by generate_mesh on one process with a scalar size", "why_tests_cant": "A Lipschitz bound quantifies over all pairs of points and over an unbounded family of nested expressions; sampling cannot establish it.", "anchors": ["SeismicMesh/geometry/signed_distance_functions.py:Union", "SeismicMesh/geometry/signed_distance_functions.py:Intersection", "SeismicMesh/geometry/signed_distance_functions.py:Difference", "SeismicMesh/geometry/signed_distance_functions.py:Repeat", "SeismicMesh/geometry/signed_distance_functions.py:Torus", "SeismicMesh/geometry/signed_distance_functions.py:Prism", "SeismicMesh/geometry/signed_distance_functions.py:Cylinder", "SeismicMesh/geometry/signed_distance_functions.py:_manipulate", "SeismicMesh/generation/mesh_generator.py:generate_mesh"]}
{"id": "C120", "title": "Laplacian smoothing shortens edges and keeps the total area, but may turn triangles over", "statement": "On a 2D triangle mesh, every sweep of laplacian2 lowers the sum over the triangles of the squared side lengths by at least the sum (over triangle corners) of the squared movements; the returned mesh therefore never has a larger sum than the input, and has the same sum only if no vertex was moved. The solution computed by laplacian2_fixed_point has the least such sum among all placements with the same boundary vertices. If the triangles are listed the same way round, the total signed area is the same before and after either smoother. Single triangles are not protected: on a dart-shaped domain with all areas positive, both smoothers return a mesh with a triangle of negative area, whatever the tolerance and the number (at least one) of sweeps.", "quantifier": "all triangle meshes, sets of held vertices, tolerances, numbers of sweeps, placements with the same boundary; an explicit mesh for the failing half", "why_tests_cant": "The decrease must hold for every mesh and every sweep, and minimality compares with every other placement of the vertices.", "anchors": ["SeismicMesh/geometry/utils.py:laplacian2", "SeismicMesh/geometry/utils.py:laplacian2_fixed_point"]}
{"id": "C121", "title": "The place does not matter: meshes move with their inputs", "statement": "generate_mesh called with the domain, the size function, the box, the fixed points, the initial points and the subdomains all moved by a vector v, and everything else unchanged, returns the same mesh moved by v with the same cells after the same iterations, or fails or goes on in the same way; so does sliver_removal, with or without preserving the boundary. A Rectangle, Cube, Disk or Ball made with moved corners or centre is the moved domain, and so is a Disk, Ball, Torus, Prism or Cylinder made with translate=v, turned and stretched or not. A Rectangle or Cube made with translate=v (v not zero) is not: its corners stay where they were, and generate_mesh holds fixed vertices there, even far outside the moved domain.", "quantifier": "all vectors, all domains, size functions, options and libraries' answers that move along with their inputs, all numbers of iterations, in 2D and 3D, in exact arithmetic", "why_tests_cant": "it relates two runs for every vector, every domain and every library answer; a test compares a few places and sees rounding differences", "anchors": ["SeismicMesh/generation/mesh_generator.py:generate_mesh", "SeismicMesh/generation/mesh_generator.py:sliver_removal", "SeismicMesh/geometry/signed_distance_functions.py:Rectangle"]}
{"id": "C122", "title": "What the plots show, and where they go", "statement": "plot_sizing_function, called on the first process with a 2D size function and a positive stride, draws exactly the points every 50 units from the lower corner of the box (every stride-th row of them, the upper ends excluded), each with the size there, and saves the figure exactly when a file name is given; for a size function from get_sizing_function_from_segy without a timestep all drawn sizes are between hmin and hmax. A domain at most 50 units high and wide is drawn as a single value. The call fails exactly for something that is not a size function, a box that is not 2D, a stride of 0 - and on every process but the first, whatever it is given. The method show of a domain displays exactly the sampled points where its function is between -0.01 and 0.01, all within 0.01 of its box, and never writes a file even when a file name is given.", "quantifier": "all size functions, boxes, strides, file names, ranks, domains and random samples", "why_tests_cant": "it is about every sampled point of every box; a test sees a figure, and one process", "anchors": ["SeismicMesh/sizing/mesh_size_function.py:plot_sizing_function", "SeismicMesh/geometry/signed_distance_functions.py:_show", "SeismicMesh/geometry/signed_distance_functions.py:_generate_samples"]}
{"id": "C123", "title": "laplacian2's sweeps converge to laplacian2_fixed_point's answer exactly when the tolerance does not stop them", "statement": "laplacian2 never ends farther (in the largest coordinate difference) from the balanced positions - held vertices kept, every other vertex at the weighted average of its neighbours - than its input was, whatever tol and max_iter. With tol <= 0 on a mesh with a boundary all max_iter sweeps are made, and if every vertex has a held vertex within n steps and no vertex lies in more than d triangles the difference is at most (1-(1/(2d))^n)^(max_iter div n) times the initial one; hence, when every vertex is joined to the boundary by a chain of triangles, laplacian2 with enough sweeps comes as near as wanted to the result of laplacian2_fixed_point. With tol > 0 (the default is 0.01) this fails: there is a mesh on which it stops after one sweep, more than 300 units away from that result, however small tol and however large max_iter.", "quantifier": "all triangle meshes in the plane, vertex positions, numbers of sweeps, tolerances, fixed points and accuracies", "why_tests_cant": "convergence is a statement about all meshes and all numbers of sweeps; a test sees a few meshes after a few sweeps", "anchors": ["SeismicMesh/geometry/utils.py:laplacian2", "SeismicMesh/geometry/utils.py:laplacian2_fixed_point", "SeismicMesh/geometry/utils.py:_sparse"]}
{"id": "C124", "title": "Smoothing does not depend on the coordinate system, as long as distances are kept", "statement": "Applying a translation, rotation or reflection (any isometry of the plane) to the vertices and to the points to keep and then calling laplacian2 gives the same exception, or the mesh with the isometry applied to the result. laplacian2_fixed_point commutes with every affine map, and so does laplacian2 when tol <= 0 and no points are to be kept. With tol > 0 this fails for stretches: there is a mesh for which merely changing the unit along x changes the result (the sweeps stop at another time).", "quantifier": "all triangle meshes, points to keep, numbers of sweeps, tolerances and maps", "why_tests_cant": "a test applies a few rotations to a few meshes; the claim is for every map and every mesh, whatever number of sweeps the stopping test allows", "anchors": ["SeismicMesh/geometry/utils.py:laplacian2", "SeismicMesh/geometry/utils.py:laplacian2_fixed_point"]}
{"id": "C125", "title": "Smoothing does not depend on the numbering, except to break ties between points to keep", "statement": "If the vertices of a triangle mesh get other numbers, the triangles another order and the corners of each triangle another order, laplacian2 raises the same exception or returns the same mesh under the new numbers - same number of sweeps, same positions - provided that every point to keep has one nearest vertex; and the solutions of laplacian2_fixed_point's system are the same under the new numbers. When two vertices are equally near to a point to keep the numbering decides which one stays: there is a mesh with two numberings whose results differ.", "quantifier": "all triangle meshes, renumberings, orders of triangles and corners, points to keep, numbers of sweeps and tolerances", "why_tests_cant": "n! numberings; a test tries a few", "anchors": ["SeismicMesh/geometry/utils.py:laplacian2", "SeismicMesh/geometry/utils.py:laplacian2_fixed_point", "SeismicMesh/geometry/utils.py:get_boundary_vertices", "SeismicMesh/geometry/utils.py:get_edges"]}
{"id": "C126", "title": "Tetrahedral meshes in the smoothers and in is_manifold", "statement": "The smoothers compare the number of array axes, not of coordinates, with two: their NotImplementedError never meets a tetrahedral mesh. laplacian2 on one returns it unchanged when no sweep is asked for or when some vertex is in none of the first three columns of entities (the last corner is not looked at), and raises ValueError otherwise; laplacian2_fixed_point always raises before solving (and in the plane exactly when no edge lies in exactly one triangle). With dim=3 get_boundary_edges returns exactly the edges of exactly two tetrahedra, and is_manifold says True iff twice their number is three times the number of their end points and raises when there are none: a single tetrahedron raises, two tetrahedra glued along a facet are called non-manifold, two coincident ones manifold.", "quantifier": "every tetrahedral mesh (and every array shape for the check), every number of sweeps, tolerance and list of fixed points", "why_tests_cant": "Universal over meshes; the verdict is a counting identity.", "anchors": ["SeismicMesh/geometry/utils.py:laplacian2", "SeismicMesh/geometry/utils.py:laplacian2_fixed_point", "SeismicMesh/geometry/utils.py:get_boundary_edges", "SeismicMesh/geometry/utils.py:is_manifold"]}
{"id": "C127", "title": "laplacian2 in double precision", "statement": "Carried out in double precision, in whatever order the sparse product adds the neighbours, laplacian2 returns the boundary vertices, and every requested point that is a vertex (other vertices at least 2^-500 away), bit for bit where they were; all other coordinates are within (1+2^-53)^((2d+1)k)*(M + k*2^-1074) - M of the result of k exact averaging sweeps, k <= max_iter, where d bounds the triangles at a vertex and M the coordinates; so no coordinate leaves the box of the mesh by more than that. It can leave it: there are three counterclockwise triangles around a vertex, with coordinates in double precision, which after any number of sweeps has a larger x than every original vertex. Edges shorter than 2^-52 count as 2^-52 long: if after one sweep the ends of every edge differ by at most 2^-54 in each coordinate, no further sweep is made, however the edges grew.", "quantifier": "every 2D mesh, number of sweeps, tolerance, list of fixed points and order of summation (no overflow)", "why_tests_cant": "Accumulated rounding over all meshes and iteration counts; the convex-hull property of exact averages fails only for special bit patterns.", "anchors": ["SeismicMesh/geometry/utils.py:laplacian2"]}
{"id": "C128", "title": "Triangle quality in double precision", "statement": "Computed in double precision, the quality of a triangle whose sides are between 2^-100 and 2^100 is within 2^-38 of the exact one as soon as that is at least 2^-36; a computed quality that is a number is between 0 and three times the exact quality plus 2^-25, but it can exceed 1, and some triangles of positive area have no quality (NaN). delete_boundary_entities therefore removes, whatever min_qual is, exactly the listed triangles whose computed quality is a number below it: with min_qual at least 2^-24, those worse than the minimum by more than 2^-38 go (or have no quality), those better by as much stay, and a triangle without a quality stays for every min_qual. Of two overlapping triangles the linter removes the worse one when the better has quality at least 2^-22 and the other less than a quarter of it.", "quantifier": "every triangle with sides in the stated range, every min_qual and every list of boundary triangles", "why_tests_cant": "The bound is over all triangles; the cancellation in Heron's formula only fails for special bit patterns of thin triangles.", "anchors": ["SeismicMesh/geometry/utils.py:simp_qual", "SeismicMesh/geometry/utils.py:delete_boundary_entities", "SeismicMesh/geometry/utils.py:linter"]}
{"id": "C129", "title": "Torus, Prism and Cylinder in double precision", "statement": "Without rotation, stretch and translation, the computed values of Torus(r1,r2), Prism(b,h) and Cylinder(h,r) at a point (x,y,z) differ from the exact formulas by at most 2^-45 * s + 2^-529, where s is the sum of the sizes of the coordinates and the two parameters. So a point further than that from the surface is put on the right side: nearer than r2 to the circle of radius r1 around the y axis; between the ends and below the sloping sides of the prism (with 0.866025 for half the root of 3); within r of the y axis and |y| < h/2. Nearer points need not be: points outside Cylinder(2,1) and outside Torus(1/2,1/2) have value exactly 0.", "quantifier": "all points with coordinates in double precision and all parameters (no overflow)", "why_tests_cant": "A bound on the accumulated rounding over all points and parameters; the wrong sides occur only for points within 2^-54 of the surface.", "anchors": ["SeismicMesh/geometry/signed_distance_functions.py:Torus", "SeismicMesh/geometry/signed_distance_functions.py:Prism", "SeismicMesh/geometry/signed_distance_functions.py:Cylinder", "SeismicMesh/geometry/signed_distance_functions.py:_length"]}
{"id": "C130", "title": "Sliver detection in double precision", "statement": "In double precision the list of slivers has exactly the tetrahedra with an edge whose computed cosine is a number between -1 and 1 and whose computed angle (any acos) is outside the bounds, in increasing order, once each. A cosine that rounding brings outside [-1,1] has no angle (NaN) and is taken to be within every bound. So, other than in exact arithmetic, where a flat tetrahedron with proper faces is always listed (C55), the flat tetrahedron (0,3,0),(2,2,0),(3,1,0),(1,1,0) is not listed whatever the bounds, and neither is a tetrahedron of positive volume with a dihedral angle of atan(2^-28). For a tetrahedron with edges of at least 2^-100 and the sine of every face angle at least t (2^-20 <= t <= 1), each computed cosine exists and is within 2^-41/t^2 of the exact one; so, with a library acos that is accurate to delta, one with a dihedral angle outside the bounds by more than these errors, and with a cosine not within 2^-41/t^2 of 1 or -1, is listed, and a listed one has a dihedral angle outside the bounds or inside by no more than these errors.", "quantifier": "every mesh, all bounds, every acos function (no overflow, no fused multiply-add)", "why_tests_cant": "Whether the NaN occurs depends on single rounding errors of about sixty operations; tests with other coordinates do not show it.", "anchors": ["SeismicMesh/generation/mesh_generator.py:_calc_dihedral_angles", "SeismicMesh/geometry/cpp/fast_geometry.cpp:c_calc_dihedral_angles"]}
{"id": "C131", "title": "Set operations in double precision", "statement": "Without smoothing, Union, Intersection and Difference add no rounding: if at a point every operand's computed value is within e of its exact value, so is the result, and a point whose exact result is further than e from 0 is put on the right side. With smoothing k (a double of at least 2^-400, at most M, with all computed operands between -M and M), the result of n operands is within e + n(n-1) M 2^-50 of the exact one; where two operands differ by at least k, the smoothed result of the two is exactly the minimum (maximum) of their computed values. For Disks e is the bound of C98.", "quantifier": "all operands, points, smoothing values and numbers of operands up to 2^40 (no overflow)", "why_tests_cant": "A test compares a few points with a tolerance of its own choosing; which tolerance suffices at every point is not visible there.", "anchors": ["SeismicMesh/geometry/signed_distance_functions.py:Union", "SeismicMesh/geometry/signed_distance_functions.py:Intersection", "SeismicMesh/geometry/signed_distance_functions.py:Difference"]}
