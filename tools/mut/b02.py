G='Model/Generator.v';N='Model/Newton.v';F='Model/Forces.v';T='Model/Triang.v';W='Model/WhereTo.v';B='Model/Blocker.v';L='Model/Localize.v';M='Model/Migration.v';I='Model/InitGrid.v';D='Model/Dihedral.v';P='Model/Laplace.v'
MUT=[
(G,'mesh_loop','if Reqb (INR count) (g_max_iter P - 1) then','if Reqb (INR count) (g_max_iter P) then','C68: one triangulation too many',[]),
(G,'finish','remove_outside (g_dim P) (g_fd P) (g_h0 P * (1 / 1000)) p2 (snd pt1)','snd pt1','C69: last filter dropped',[]),
(G,'finish','(g_h0 P * (1 / 1000)) p2 (snd pt1)','(g_h0 P * (1 / 1000)) (fst pt1) (snd pt1)','C69: filter evaluated at the positions before the level-set improvement',[]),
(G,'meshed_fd','if box_eqb (dom_bbox d) b1 then Some (dom_fd d) else box_fd (full_bbox d s)','Some (dom_fd d)','C72: the user domain always meshed',[]),
(G,'minmax_box','minmax_box (negb upper) t0 t1','minmax_box upper t0 t1','C72: maxima never taken',[]),
(G,'full_bbox','Some b1 => minmax_box false (dom_bbox d) b1','Some b1 => b1','C72: only the size function box',[]),
(G,'sliver_loop','      | [] => Some (run_fix B p1 t1, Datatypes.S count)','      | [] => Some (run_fix B p1 t0, Datatypes.S count)','C73: cells outside the domain returned (unchecked slivers)',[]),
(G,'sliver_removal','(so_min_deg o * PI / 180) (so_max_deg o * PI / 180)','(so_min_deg o) (so_max_deg o)','C73: degrees taken for radians',[]),
(G,'sliver_removal','if (0 <? rank)%nat then inr tt','if (1 <? rank)%nat then inr tt','C73: rank 1 works too',[]),
(G,'sliver_defaults','mkSliverOpts 50 false 10 180','mkSliverOpts 50 false 10 170','C73: the documented default (the theorem records the discrepancy)',[]),
(G,'sliver_removal','if Rltb (so_max_iter o) 0 then Some (Err ValueError, O) else','','C73: negative max_iter accepted (not claimed by C73)',[]),
(G,'prepare','if Rltb (o_max_iter o) 0 then Err ValueError else','','C68: negative max_iter not refused',[]),
(N,'outside_band','if (idx =? 0)%nat then Rltb 0 d else','if (idx =? 0)%nat then Rltb d 0 else','C71: inside points are moved',[]),
(N,'outside_band','Rltb d (hmin / (15 / 10))','Rltb d (hmin * (15 / 10))','C71: wider band for subdomains',[]),
(N,'dgrad2','if Rltb s deps then deps else s','s','C71: no floor, tiny gradients',[]),
(N,'newton','xi - alpha * (fd x * gi / dgrad2 deps g)','xi + alpha * (fd x * gi / dgrad2 deps g)','C71: wrong direction',[]),
(N,'improve_loop','(alpha / INR (S it))','(alpha * INR (S it))','C71: later sweeps grow (claims are about the first sweep and fixed points)',[]),
(F,'L0mult','2 ^ (dim - 1)','2 ^ dim','C70: L0mult',[]),
(F,'bar_force','let f := desired dim fh m p es e - bar_len p e in','let f := bar_len p e - desired dim fh m p es e in','C70: long bars push',[]),
(F,'compute_forces','then - force_vec dim fh m p es e j else 0','then force_vec dim fh m p es e j else 0','C70: no reaction on the second end',[]),
(F,'scale','(1 / INR dim)','(1 / 2)','C70: square root in 3D too',[]),
(F,'zero_rows','if existsb (Nat.eqb v) ifix then map (fun _ => 0) (nth v F []) else','','C70: fixed vertices move',[]),
(T,'get_finite_vertices','verts := renumber 0 (verts s)','verts := verts s','C74: no renumbering',[]),
(T,'insert_pairs','combine p (seq (length (verts s)) (length p))','combine p (seq 0 (length p))','C74/C81: numbering restarts',[]),
(T,'face_edges','(addr g <? addr f)%Z && is_in sel g','(addr g <? addr f)%Z','C82: edges towards unselected faces lost',[]),
(T,'cell_edges','if existsb (fun g => (addr g <? addr f)%Z && is_in sel g)','if existsb (fun g => is_in sel g)','C82: shared edges lost',[]),
(W,'scan','else if meets s box1 then Some false','else if meets s box1 then Some true','C59: sent to the wrong neighbour',[]),
(W,'export_writes','(kb * S d + above_count * S d + S d)','(above_count * S d + S d)','C59: rows for above overwrite those for below',[]),
(W,'do_overlap','negb (Rltb b c) && negb (Rltb d a)','Rltb c b && Rltb a d','C61: touching boxes do not overlap',[]),
(W,'where_to','(repeat (-1)%R (1 + n * S d))','(repeat (-1)%R ((1 + n) * S d))','C60: buffer large enough (the negative theorem fails)',[]),
(W,'lower_box','extent_box d extents (rank - 1)','extent_box d extents (rank + 1)','C59: neighbours swapped',[]),
]
