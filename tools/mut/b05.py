S='Model/SDF.v';X='Model/Simplex.v';F='Model/Formulas.v';M='Model/Mesh.v';I='Model/Interp.v';V='Model/VelocityIO.v';P='Model/Process.v';R='Model/Parallel.v';G='Model/Generator.v';MG='Model/Migration.v'
MUT=[
(M,'fix_mesh','let t1 := uniqR (map (fun r => sort_nat (map (fun v => nth v jx O) r)) t) in','let t1 := map (fun r => sort_nat (map (fun v => nth v jx O) r)) t in','C33: duplicate entities kept',[]),
(M,'fix_mesh','map (map (fun v => find_pos (Nat.eqb v) pix)) t1','t1','C33: entities not renumbered',[]),
(M,'fix_mesh','(if fix_orientation then map (orient p2) t2 else t2), jx2)','(if fix_orientation then map (orient p) t2 else t2), jx2)','C34: orientation computed from the old points',[]),
(M,'orient','Rltb (simp_vol (map (fun v => nth v p []) r)) 0','Rltb 0 (simp_vol (map (fun v => nth v p []) r))','C34: orientation reversed',[]),
(M,'fix_mesh','map (fun v => find_pos (Nat.eqb v) pix) (concat t1))','jx)','C35: third result repaired (negative claim fails)',[]),
(M,'vtoe_ptr','++ [length keys]','++ [length keys - 1]','C36: last pointer',[]),
(M,'changes','pos :: changes (S pos) x t end','S pos :: changes (S pos) x t end','C36: pointers shifted',[]),
(M,'get_edges','[[0;1];[1;2];[2;0];[0;3];[1;3];[2;3]])) t.','[[0;1];[1;2];[2;0];[0;3];[1;3];[1;3]])) t.','C37: an edge of tetrahedra missing',[]),
(M,'gen_edges','(if dim =? 3 then [[0;3];[1;3];[2;3]] else [])).','(if dim =? 3 then [[0;3];[1;3]] else [])).','C37: an edge of tetrahedra missing in the generator',[]),
(M,'std_unique','if edge_eqb x y then x :: u else x :: y :: u','if edge_eqb x y then u else x :: y :: u','C37: repeated edges lost',[]),
(M,'edge_ltb','(fst x <? fst y) || ((fst x =? fst y) && (snd x <? snd y))','(fst x <? fst y)','C37: sorted by first vertex only',[]),
(M,'rows_with_count','count_occ row_dec rows r =? n','count_occ row_dec rows r <=? S n','C38: interior edges reported',[]),
(M,'get_facets','[[0;1;3];[1;2;3];[2;0;3];[1;2;0]]','[[0;1;3];[1;2;3];[2;0;3];[1;2;3]]','C40: a facet is missing',[]),
(M,'get_boundary_entities','slice vtoe (nth v ptr O) (nth (S v) ptr O)','slice vtoe (nth v ptr O) (nth v ptr O)','C40: empty slices',[]),
(M,'other_end','filter (fun w => negb (w =? v)) e','filter (fun w => (w =? v)) e','C39: turns around',[]),
(M,'first_choice','if edge_has v e && negb s then','if edge_has v e then','C39: visited edges reused',[]),
(M,'is_manifold','2 * length be =? ncol * length','length be =? ncol * length','C41: count of boundary edges',[]),
(M,'poor','| None => false end','| None => true end','C42: NaN qualities count as poor',[]),
(M,'kept_rows','filter (fun e => poor min_qual (qual e)) bele in','filter (fun e => poor min_qual (qual e)) (seq 0 (length t)) in','C42: interior entities deleted too',[]),
(M,'ext_dist','c_dblock rnd e0 e3 e1 e4 e2 e5 q','c_dblock rnd e0 e1 e2 e3 e4 e5 q','C51: extents in the wrong order',[]),
(M,'remove_external','negb (out r =? S dim)','negb (out r =? dim)','C51: wrong count',[]),
(I,'cell_of','Nat.min (count_lt g x - 1) (length g - 2)','Nat.min (count_lt g x) (length g - 2)','C83: cell off by one',[]),
(I,'interp','(1 - s) * interp gs\' (fun k => f (i :: k)) x\' + s * interp','s * interp gs\' (fun k => f (i :: k)) x\' + (1 - s) * interp','C83: weights exchanged',[]),
(I,'grid_vecs','[grid_vec rnd (bget b 0) (bget b 1) (n0 a); grid_vec rnd (bget b 2) (bget b 3) (n1 a)]','[grid_vec rnd (bget b 0) (bget b 1) (n1 a); grid_vec rnd (bget b 2) (bget b 3) (n0 a)]','C83: axes exchanged',[]),
(V,'read_segy','nth (nz - 1 - i) (nth j traces [])','nth i (nth j traces [])','C87: not flipped',[]),
(V,'write_velocity_model','".hdf5")','".h5")','C87: file name',[]),
(V,'write_velocity_model','if Rgtb (w_domain_pad w) 0 then','if Rgtb (w_domain_pad w) 1 then','C87: small paddings ignored',[]),
(G,'ifix_of','map (fun f => closest_node f p) (g_pfix P)','[]','C86: fixed points not found',[]),
(G,'finish','(g_h0 P * (1 / 1000))','(- (g_h0 P * (1 / 1000)))','C69/C89: outside cells kept',[]),
(G,'remove_outside','(- geps)) t','geps) t','C69: outside cells kept',[]),
(R,'allreduce_min','fold_left Rmin (map num_in l) x','fold_left Rmin (map num_in l) 0','C89: minimum with zero',[]),
(R,'localize_sizing_p','(fun _ => Done (lfh O))','(fun _ => Done (lfh 1%nat))','C89: rank 0 uses the grid of rank 1',[]),
(R,'bcasts_p','(fun l => Done (nth 0 (pts_in m) [] :: l))','(fun l => Done (l ++ [nth 0 (pts_in m) []]))','C89: extents in reverse order',[]),
(R,'exchange_p','(fun b => Done (a ++ b))','(fun b => Done (b ++ a))','C89: received points in the other order',[]),
(R,'recv_count','then 1%nat else length recv','then 0%nat else length recv','C89/C90: idle ranks',[]),
(R,'par_finish','if (rank =? 0)%nat then Done (Some (match finish','if (rank =? 1)%nat then Done (Some (match finish','C89: another rank returns the mesh',[]),
(R,'own_extent','map (fun i => max_list (column i p) + (if','map (fun i => max_list (column i p) - (if','C89: upper extents shrunk',[]),
(R,'deal_p','Out l (MPts b)','Out (l - 1)%nat (MPts b)','C90: blocks sent to the wrong rank',[]),
(P,'ps_receive','pc s p q = m :: c ->','pc s p q = c ++ [m] ->','C88: last message first',[]),
]
