L='Model/Laplace.v'; D='Model/Dihedral.v'; H='Model/FastHJ.v'; F='Model/Formulas.v'; N='Model/Newton.v'; FO='Model/Forces.v'
W='Model/WhereTo.v'; B='Model/Blocker.v'; LO='Model/Localize.v'; MI='Model/Migration.v'; I='Model/InitGrid.v'; MP='Model/MPI.v'; U='Model/UFilter.v'; SR='Model/SizingRanks.v'
MUT=[
(L,'nbrs','(fst e =? v)%nat) (adj_entries t))','(snd e =? v)%nat) (adj_entries t))','C52: columns instead of rows of the adjacency (symmetric: may be equivalent; the averages would be of the vertex itself)',[]),
(L,'sq2','map (fun d => d * d)','map (fun d => d)','C52: distance without squares in the search for the fixed vertex',[]),
(L,'argmin','argmin_from 1 0 x t','argmin_from 1 1 x t','C52: position of the minimum wrong when it is the first',[]),
(L,'edge_lens','if Rltb l eps52 then eps52 else l','l','C53: lengths not floored',[]),
(L,'lap_solves','lap_rhs bnd p v j','0','C54: right-hand side zero on the boundary',[]),
(D,'l2_norm','sqrt (fold_right Rplus 0 (map (fun x => x * x) u))','fold_right Rplus 0 (map (fun x => x * x) u)','C55: norm without root',[]),
(D,'cross_product','A 2%nat * B 0%nat - A 0%nat * B 2%nat','A 0%nat * B 2%nat - A 2%nat * B 0%nat','C55: second component of the cross product with the wrong sign',[]),
(D,'dot_product','fold_right Rplus 0 (map2 Rmult a b)','fold_right Rplus 0 (map2 Rmult a a)','C55: dot product of a vector with itself',[]),
(D,'cell_angles','nth (5 - i) dh_edges','nth (4 - i) dh_edges','C55: wrong opposite edge',[]),
(D,'calc_dihedral_angles','flat_map (fun r => cell_angles (pts_of p r)) t','flat_map (fun r => firstn 5 (cell_angles (pts_of p r))) t','C55: five angles per cell',[]),
(D,'argwhere','if f x then i :: argwhere f (S i) t','if f x then i :: argwhere f i t','C55: positions not advanced after a hit',[]),
(H,'sub2ind','(col - 1) * nrows + row','(col - 1) * ncols + row','C06: column stride wrong',[]),
(H,'findIndices_from','if a =? value then pos','if a >=? value then pos','C02/C03: nodes of earlier sweeps treated as active (more work, same claims: may be undetected)',[]),
(H,'findIndices','findIndices_from 0 A value','findIndices_from 1 A value','C02: active nodes shifted by one',[]),
(H,'relax_all','obind (relax g ftol iter s nod1 n2) (fun s\' => relax_all g ftol iter s\' nod1 t)','obind (relax g ftol iter s nod1 n2) (fun s\' => Some s\')','C02: only the first neighbour relaxed',[]),
(H,'sweep','(fun s\' => sweep d0 d1 d2 g ftol iter s\' t)','(fun s\' => Some s\')','C02: only the first active node relaxed',[]),
(H,'ftol_of','min_list ffun * rnd','max_list ffun * rnd','C02: tolerance relative to the largest size',[]),
(H,'limgrad','(fun r => Some (fst r))','(fun r => Some ffun)','C02/C84: the unlimited field is returned',[]),
(F,'det3','+ m2 * (m3 * m7 - m6 * m4)','- m2 * (m3 * m7 - m6 * m4)','C45: sign error in the 3x3 determinant',[]),
(F,'rsign','if Rltb x 0 then (-1)%Z else 0%Z','(-1)%Z','C48: sign of zero is -1',[]),
(F,'hom','p ++ [1]','p ++ [0]','C48: homogeneous coordinate 0',[]),
(F,'in_entity','else if (dim =? 3)%nat then vertex_in_entity3','else if (dim =? 3)%nat then vertex_in_entity2','C49/C92: triangle test for tetrahedra',[]),
(F,'np_div','| _, [y] => Ok (map (fun x => x / y) a)','','C50: no broadcasting of a single length (2 triangles give 1 radius: not this case; maybe equivalent on the claim)',[]),
(F,'np_div','| [x], _ => Ok (map (fun y => x / y) b)','','C50: no broadcasting of a single radius',[]),
(N,'deps_vec','if (k =? i)%nat then deps else 0','deps','C71: step along the diagonal for every axis',[]),
(N,'dgrads','- fd x) / deps','- fd x)','C71: differences not divided by the step',[]),
(N,'project_back','then newton fd deps 1 x else x','then newton fd deps 2 x else x','C71: double step',[]),
(N,'project_levels','project_levels deps hmin (S idx) ls','project_levels deps hmin idx ls','C71: every level treated as the domain',[]),
(N,'improve_level_set','(seq 0 5) 1 p','(seq 0 5) (1/2) p','C71: half steps',[]),
(FO,'bars','unique_edges (gen_edges dim t)','map norm_edge (gen_edges dim t)','C70: shared bars counted once per cell',[]),
(FO,'bar_vec','map2 Rminus (nth (fst e) p []) (nth (snd e) p [])','map2 Rminus (nth (snd e) p []) (nth (fst e) p [])','C70: bar vector reversed',[]),
(FO,'mid','(x + y) / 2','x','C70/C103: size taken at the first end of the bar',[]),
(FO,'powsum','x ^ dim','x','C70: sums without powers',[]),
(FO,'move_points','x + dt * f','x - dt * f','C70: points moved against the force',[]),
(FO,'force_step','move_points dt p (zero_rows ifix (compute_forces dim fh m p t))','move_points dt p (compute_forces dim fh m p t)','C86/C70: fixed points move',[]),
(W,'vtoe','filter (Nat.eqb v) (nth e faces [])','filter (Nat.eqb v) (tl (nth e faces []))','C59/C61: elements with v as first corner forgotten',[]),
(W,'element_lo','min_list (map','max_list (map','C61: lower corner of the element box wrong',[]),
(W,'element','nth v points []) (nth e faces [])','nth v points []) (nth (S e) faces [])','C61: corners of the next element',[]),
(W,'destination','(vtoe faces v)','(vtoe faces (S v))','C59/C61: elements of the next vertex',[]),
(W,'row_writes','(firstn d (nth v points []) ++ [INR v])','(firstn d (nth (S v) points []) ++ [INR v])','C59: coordinates of the next vertex',[]),
(W,'header_writes','INR kb :: INR ka','INR ka :: INR kb','C59: counts exchanged in the header',[]),
(W,'poke','if (k <? length buf)%nat then poke (upd buf k x) r else None','poke (upd buf k x) r','C60: writes beyond the vector unnoticed',[]),
(W,'count','Bool.eqb a b','negb (Bool.eqb a b)','C59: counts of the other direction',[]),
(W,'table_view','(i * S d + j)','(i * d + j)','C59: table read with the wrong stride',[]),
(W,'read_table','rows := map (firstn d) (tl t)','rows := map (firstn d) t','C59: header sent as a point',[]),
(W,'extent_box','(firstn d e, firstn d (skipn d e))','(firstn d e, firstn d e)','C61: empty extents',[]),
(W,'upper_box','if (rank =? 0)%nat then extent_box d extents (rank + 1)','if (rank =? 0)%nat then extent_box d extents rank','C61: rank 0 compares with its own extent',[]),
(W,'enqueue','(lower_box d size rank extents) (upper_box d size rank extents)','(upper_box d size rank extents) (lower_box d size rank extents)','C59/C61: boxes exchanged',[]),
(B,'eps','/ 2 ^ 52','0','C62/C78: no margin (still covers in exact arithmetic: may be undetected for C62)',[]),
(B,'column','nth k p 0','nth 0 p 0','C62: first coordinate used for all axes',[]),
(B,'step_of','rnd (rnd (snd l - fst l) / INR m)','rnd (rnd (snd l - fst l) / INR (S m))','C62: blocks too narrow',[]),
(B,'linspace','rnd (rnd (INR i * step_of l m) + fst l)','rnd (rnd (INR (S i) * step_of l m) + fst l)','C62: blocks shifted by one',[]),
(B,'lows','| [xs; ys] => flat_map (fun y => map (fun x => [x; y]) xs) ys','| [xs; ys] => map (fun q => [fst q; snd q]) (combine xs ys)','C62: only the diagonal blocks',[]),
(LO,'grid_of','flat_map (fun x => map (cons x) (grid_of t)) v','flat_map (fun x => map (cons x) (grid_of t)) (rev v)','C79: values in reverse order',['C79_sizes']),
(LO,'local_sizing','sizing_vectors bbox r size axis h0','sizing_vectors bbox 0 size axis h0','C64/C79: every rank gets the grid of rank 0',[]),
(LO,'localize_sizing','map (fun r => Send r 11%nat (lfh r)) (seq 1 (size - 1))','map (fun r => Send r 11%nat (lfh r)) (seq 1 (size - 2))','C79: the last rank gets no sizes',[]),
(LO,'bcast','Send r coll m) (seq 1 (size - 1))','Send r coll m) (seq 1 (size - 2))','C79: broadcast misses the last rank',[]),
(LO,'deal','Send local 12%nat (LBlock b)','Send local 12%nat (LBlock (tl b))','C79: first point of a block lost',[]),
(LO,'localize_points','(if (rank =? local)%nat then [Recv 0%nat 12%nat] else [])','[]','C79: blocks not received',[]),
(LO,'user_defined_points','localize_sizing lfh size 0 ++ localize_points size 0 blocks extents','localize_points size 0 blocks extents ++ localize_sizing lfh size 0','C79: points sent before the sizes',[]),
(LO,'read_points','(pts, hd_error m1)','(hd_error m1, pts)','C79: extents read as points',[]),
(MI,'returned','concat (map snd log)','concat (map snd (tl log))','C56: first message of an exchange ignored',['C56_returned']),
(MI,'exchange_all','exchanges size r (ex r) else []','exchanges size r (tl (ex r)) else []','C56/C59: first exchange skipped',[]),
(MI,'aggregate','Send 0%nat 12%nat (Points (fst mesh)); Send 0%nat 13%nat (Cells (snd mesh))','Send 0%nat 12%nat (Cells (snd mesh)); Send 0%nat 13%nat (Points (fst mesh))','C58: cells sent before points',[]),
(MI,'reduce_sum','if (r =? i)%nat then len r else 0%nat','len r','C58: every entry is the total',[]),
(MI,'cumsum','(acc + x)%nat :: cumsum (acc + x) t','acc :: cumsum (acc + x) t','C58: offsets of the previous rank',[]),
(I,'node','start + INR k * step','start + INR (S k) * step','C65: first node one step inside',[]),
(I,'staggered2','map (fun j => [node (fst b0) h0 i; node (fst b1) h0 j + shift h0 i])','map (fun j => [node (fst b0) h0 i; node (fst b1) h0 j + shift h0 j])','C65: shift depends on the column',[]),
(I,'staggered2','(n_nodes (fst b1) (snd b1 + h0) h0))) (seq 0 (n_nodes (fst b0) (snd b0 + h0) h0)).\nDefinition staggered3','(n_nodes (fst b1) (snd b1) h0))) (seq 0 (n_nodes (fst b0) (snd b0 + h0) h0)).\nDefinition staggered3','C65: last column missing',[]),
(I,'staggered3','node (fst b2) h0 k + shift h0 i','node (fst b2) h0 k','C65: no shift along z (claims about the stagger)',[]),
(I,'create_staggered_grid','| [b0; b1; b2] => staggered3 h0 b0 b1 b2','| [b0; b1; b2] => staggered3 h0 b1 b0 b2','C65: axes exchanged in 3D',[]),
(I,'limit','INR i * ((snd b - fst b) / INR size)','INR i * ((snd b - fst b) / INR (S size))','C66/C67: slabs too narrow',[]),
(I,'make_init_points','local_span (nth i bbox (0, 0)) size rank h0','local_span (nth i bbox (0, 0)) size 0 h0','C66: every rank gets the first slab',[]),
(I,'sizing_span','(limit b size rank, limit b size (S rank))','(limit b size rank, limit b size rank)','C67: empty slab for the local sizes',[]),
(MP,'take','if t\' =? t then Some (m, r)','if t\' <=? t then Some (m, r)','C88/C56: tags ignored on receipt',[]),
(U,'mean1','mean_line w (n1 a) (fun j\' => av a i j\' k) j','mean_line w (n0 a) (fun j\' => av a i j\' k) j','C94: wrong extent for the second axis',[]),
(U,'mean0','mean_line w (n0 a)','mean_line (S w) (n0 a)','C94: window too wide along depth',[]),
(SR,'sizing_rank','Done (Some (Ok (size_function_other b\' o)))','Done (Some (Ok (size_function_other b o)))','C96: other ranks keep their own box',[]),
]
