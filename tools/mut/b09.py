M='Model/Mesh.v'; S='Model/SDF.v'; T='Model/Triang.v'
MUT=[
(M,'insert_uniq','else if x =? y then l else y :: insert_uniq x t','else y :: insert_uniq x t','C33/C40: np.unique of vertex numbers keeps repetitions',[]),
(M,'sort_nat','fold_right insert_nat [] l.','fold_right insert_nat [] (rev (tl (rev l))).','C33/C37: sorting a row loses its last entry',[]),
(M,'find_pos','if f x then O else S (find_pos f t) end','if f x then S O else S (find_pos f t) end','C33: first occurrence found one place too late',[]),
(M,'swap2','b :: a :: t | _ => r','a :: b :: t | _ => r','C34: negative cells not swapped',[]),
(M,'valid_rows','(fun v => v <? n)','(fun v => v <=? n)','C33: a vertex number equal to the number of vertices accepted',[]),
(M,'ve_pairs','map (fun v => (v, e)) (nth e t [])','map (fun v => (v, e)) (tl (nth e t []))','C36: first corner of every entity missing from the table',[]),
(M,'vtoe_result','(map snd ve, vtoe_ptr (map fst ve))','(map fst ve, vtoe_ptr (map fst ve))','C36: table of vertices instead of entities',[]),
(M,'slice','firstn (b - a) (skipn a l)','firstn b (skipn a l)','C36/C40: slice too long',[]),
(M,'pick','map (fun i => nth i r O) ix','map (fun i => nth (S i) r O) ix','C37: columns shifted by one',[]),
(M,'norm_edge','(Nat.min a b, Nat.max a b)','(a, b)','C37: edges not normalised before np.unique',[]),
(M,'edge_eqb','(fst x =? fst y) && (snd x =? snd y)','(fst x =? fst y)','C37: edges with the same first vertex merged',[]),
(M,'insert_edge','if edge_ltb y x then y :: insert_edge x t else x :: l','x :: l','C37: edges not sorted before std::unique',[]),
(M,'unique_edges','std_unique (sort_edges (map norm_edge edges))','sort_edges (map norm_edge edges)','C37: repeated edges kept',[]),
(M,'get_boundary_edges','rows_with_count uniq (dim - 1) (','rows_with_count uniq dim (','C38: edges of two triangles returned',[]),
(M,'get_boundary_edges','(map sort_nat (get_edges dim t))','(get_edges dim t)','C38: edges compared without sorting',[]),
(M,'get_boundary_facets','rows_with_count uniq 1 (map sort_nat (get_facets t))','rows_with_count uniq 2 (map sort_nat (get_facets t))','C40: interior facets returned',[]),
(M,'get_boundary_facets','rows_with_count uniq 1 (map sort_nat (get_facets t))','rows_with_count uniq 1 (get_facets t)','C40: facets compared without sorting',[]),
(M,'get_boundary_vertices','if dim =? 2 then get_boundary_edges uniq 2 t else get_boundary_facets uniq t','get_boundary_edges uniq 2 t','C40: edges of triangles used for tetrahedra',[]),
(M,'edge_has','existsb (Nat.eqb v) e','Nat.eqb v (hd O e)','C39: only the first end of an edge is looked at',[]),
(M,'wind_loop','(upd visited c true)','visited','C39: edges not marked as visited',[]),
(M,'wind_loop','(ordering ++ [c])','(c :: ordering)','C39: the trail is collected backwards',[]),
(M,'get_winded','(nth 1 e O))','(nth 0 e O))','C39: the walk starts at the tail of the first edge',[]),
(M,'entity_qual','simp_qual (map (fun v => nth v p []) (nth e t []))','simp_qual (map (fun v => nth v p []) (nth (S e) t []))','C42: quality of the next entity',[]),
(M,'delete_boundary_entities','(kept_rows (entity_qual p t) min_qual bele t) true true','t true true','C42: nothing deleted',[]),
(M,'delete_boundary_entities','let bele := get_boundary_entities uniqR dim t ve in','let bele := seq 0 (length t) in','C42: interior entities deleted as well',[]),
(S,'length_','Rabs t ^ 2','Rabs t','C22: norm without squares',[]),
(S,'corners','[lo; hi]','[hi; lo]','C29: corners in another order',[]),
(S,'drectangle','| [x; y] => - Rmin (Rmin (Rmin (rnd (- y1 + y)) (rnd (y2 - y))) (rnd (- x1 + x))) (rnd (x2 - x))','| [x; y] => - Rmin (Rmin (Rmin (rnd (- y1 + y)) (rnd (y2 - y))) (rnd (- x1 + x))) (rnd (x1 - x))','C21: the Python rectangle compares with x1 twice',[]),
(S,'translate_back','xi - ti','xi + ti','C27: points translated the wrong way',[]),
(S,'mat_vec','map (fun row => dot row x) m','map (fun row => dot row (rev x)) m','C27: coordinates reversed before rotating',[]),
(S,'transpose2','map (fun i => map (fun row => nth i row 0) m) (seq 0 (length m)).','m.','C27: rotated instead of rotated back',[]),
(S,'rot2','[[cos a; - sin a]; [sin a; cos a]]','[[cos a; sin a]; [- sin a; cos a]]','C27: rotation in the other sense in 2D',[]),
(S,'rot_x','[0; cos a; - sin a]; [0; sin a; cos a]]','[0; cos a; sin a]; [0; - sin a; cos a]]','C27: rotation about x in the other sense',[]),
(S,'rot_y','[[cos a; 0; sin a]; [0; 1; 0]; [- sin a; 0; cos a]]','[[cos a; 0; - sin a]; [0; 1; 0]; [sin a; 0; cos a]]','C27: rotation about y in the other sense',[]),
(S,'rot_z','[sin a; cos a; 0]; [0; 0; 1]]','[sin a; cos a; 0]; [0; 0; 0]]','C27: rotation about z flattens z',[]),
(S,'norm2','sqrt (dot v v)','dot v v','C27: stretch factor squared',[]),
(S,'normalise','t / norm2 v','t','C27: stretch direction not normalised',[]),
(S,'image_bbox','max_list (map (fun p => nth i p 0) ps)]','min_list (map (fun p => nth i p 0) ps)]','C28: upper bound of the box is the lower one',[]),
(S,'stretch_point','vx * vi * alpha','vx * vi / alpha','C28: box shrunk instead of stretched',[]),
(S,'min3','Rmin (Rmin x y) z.','Rmin x y.','C28: rotation about z ignored in the lower bounds',[]),
(S,'max3','Rmax (Rmax x y) z.','Rmax x y.','C28: rotation about z ignored in the upper bounds',[]),
(S,'shift_box','(lo + v) :: (hi + v)','(lo + v) :: hi','C28: only the lower bound moves with the domain',[]),
(S,'configure','build_translation m (build_rotation dim m (build_stretch dim m s))','build_rotation dim m (build_stretch dim m s)','C28: the box ignores translation',[]),
(S,'make_prim','(if keep_corners then snd s else None)','c0','C29: corners of the untransformed box kept',[]),
(S,'Ball','[xc - r; xc + r; yc - r; yc + r; zc - r; zc + r]','[xc - r; xc + r; yc - r; yc + r; zc; zc + r]','C28/C26: box of the upper half ball',[]),
(S,'Rectangle','(c_drectangle (fun t => t) x1 x2 y1 y2) true','(c_drectangle (fun t => t) y1 y2 x1 x2) true','C21: axes exchanged in Rectangle',[]),
(S,'Cube','(c_dblock (fun t => t) x1 x2 y1 y2 z1 z2) true','(c_dblock (fun t => t) x1 x2 y1 y2 z1 y2) true','C21: top of the cube at y2',[]),
(S,'stretch_array_after','normalise v.','v.','C32: the caller\'s array is not changed',[]),
(S,'dims_guard','bool := true','bool := forallb (fun d => Nat.eqb d 2) dims || forallb (fun d => negb (Nat.eqb d 2)) dims','C31: mixed dimensions rejected',[]),
(S,'get_all','Some (x :: l)','Some l','C26: operand boxes dropped',[]),
(S,'set_init','rbind (set_bbox (d_dim d0) 0 ds)','rbind (set_bbox (d_dim d0) 0 [d0])','C26: only the first operand\'s box counts',[]),
(S,'reduce_','fold_left f t x','f x (hd 0 t)','C23: only two operands combined',[]),
(S,'smooth_intersection','Rmax d1 d2 + h * h * (1 / 4) / k','Rmax d1 d2 - h * h * (1 / 4) / k','C24: blending with the wrong sign in Intersection',[]),
(S,'smooth_difference','Rmax (- d1) d2 + h * h * (1 / 4) / k','Rmax d1 (- d2) + h * h * (1 / 4) / k','C24: operands of the smooth difference exchanged',[]),
(S,'intersection_vals','if Reqb k 0 then reduce_ Rmax d','if Reqb k 0 then reduce_ Rmin d','C23: sharp Intersection takes the minimum',[]),
(S,'Union','union_vals k (map (fun d => d_eval d x) ds)','union_vals 0 (map (fun d => d_eval d x) ds)','C24: k ignored in Union',[]),
(S,'Difference','difference_vals k (map (fun d => d_eval d x) ds)','difference_vals k (rev (map (fun d => d_eval d x) ds))','C23: operands of Difference reversed',[]),
(S,'np_mod','IZR (Int_part (x / p))','(IZR (Int_part (x / p)) + 1)','C30: modulo result shifted by a period',[]),
(S,'Repeat','mkDom 3 [x1; x2; y1; y2; z1; z2] None','mkDom 3 (d_bbox d) None','C30: box of the repeated cell only',[]),
(T,'handle_at','nth i (map handle (verts s)) 0','nth (length (verts s) - S i) (map handle (verts s)) 0','C81: vertices taken from the end',[]),
(T,'remove','removes (map (handle_at s) to_remove) s s\'','removes (map (handle_at s) (tl to_remove)) s s\'','C81: first index not removed',[]),
(T,'move','moves (combine (map (handle_at s) to_move) new_positions) s s\'','moves (combine (map (handle_at s) to_move) (rev new_positions)) s s\'','C81: positions reversed',[]),
(T,'renumber','V (handle v) (pos v) i :: renumber (S i) t','V (handle v) (pos v) (info v) :: renumber (S i) t','C74: reading the vertices does not renumber them',[]),
(T,'renumber','V (handle v) (pos v) i :: renumber (S i) t','V (handle v) (pos v) i :: renumber i t','C74: all vertices get one number',[]),
(T,'get_finite_cells','map (map (info_of s)) (cells s)','cells s','C74: cells given by handles',[]),
(T,'get_topology','(p, get_finite_cells s\', s\')','(p, get_finite_cells s, s\')','C74: cells read before the vertices are renumbered',[]),
(T,'selected','Z.eqb (nth f mask 0%Z) 1','Z.eqb (nth f mask 0%Z) 0','C82: mask inverted',[]),
(T,'cw','match i with 0 => 2 | 1 => 0 | _ => 1 end','match i with 0 => 1 | 1 => 0 | _ => 1 end','C82: wrong corner for the edge opposite to corner 0',[]),
(T,'face_edges','&& is_in sel g | None','| None','C82: edges to unselected neighbours dropped',[]),
(T,'face_edges','if skip then [] else','','C82: shared edges reported twice',[]),
(T,'get_edges2','if length mask <? length t then None\n  else let sel := selected mask (length t) in Some (flat_map (face_edges','if length t <? length mask then None\n  else let sel := selected mask (length t) in Some (flat_map (face_edges','C82: long masks refused, short ones read',[]),
(T,'tet_edges','[(0,1);(1,2);(2,0);(0,3);(1,3);(2,3)]','[(0,1);(1,2);(2,0);(0,3);(1,3)]','C82: an edge of every tetrahedron missing',[]),
(T,'get_edges3','(flat_map (cell_edges t around addr sel) (order sel))','(flat_map (cell_edges t around addr sel) (order (seq 0 (length t))))','C82: mask ignored in 3D',[]),
]
