G='Model/Generator.v'; S='Model/SDF.v'; RO='Model/Round.v'; OR='Model/Orient.v'; SN='Model/Snap.v'; L='Model/Laplace.v'; P='Model/Parallel.v'; U='Model/UFilter.v'
MUT=[
(P,'table','rank size)','(S rank) size)','C89: table of the next rank',['C89_exported_points']),
(U,'reflect','(2 * n - 1 - m)','(2 * n - 2 - m)','C94: mirror without the edge sample',['C94_mirrored_at_the_ends']),
(S,'gather_corners','| cs => Some (concat cs)','| cs => Some (hd [] cs)','C102: corners of the first operand only',['C102_gathered']),
(S,'kept_corners','Rgtb (fd c) (-1000 * deps)','Rltb (fd c) (-1000 * deps)','C102: corners deep inside kept, those on the boundary dropped',[]),
(S,'kept_corners','-1000 * deps','1000 * deps','C102: corners on the boundary dropped',[]),
(S,'build_rotation','image_bbox 2 (map (mat_vec (rot2 a)) (corners (fst s))) in (bb, Some (corners bb))','image_bbox 2 (map (mat_vec (rot2 a)) (corners (fst s))) in (bb, Some (map (mat_vec (rot2 a)) (corners (fst s))))','C102: rotated corners instead of the corners of the rotated box',[]),
(G,'used_corners','if (dim =? 3)%nat then [] else c','if (dim =? 2)%nat then [] else c','C102: corners dropped in 2D instead of 3D',[]),
(G,'used_corners','| Some c, SScalar _ => c','| Some c, SScalar _ => []','C102: corners dropped for a scalar size',[]),
(G,'fixed_points','o_pfix o ++ kept_corners fd deps (used_corners d s dim)','kept_corners fd deps (used_corners d s dim) ++ o_pfix o','C102: corners first',[]),
(G,'fixed_points','o_pfix o ++ kept_corners','kept_corners','C102: user fixed points dropped when the domain has corners',[]),
(G,'perturb_of','map (fun x => x / n) g','g','C101: gradient not normalised',[]),
(G,'perturb_of','map (fun x => x / n) g','map (fun x => - x / n) g','C101: move against the gradient',[]),
(G,'new_step','| None => step / gamma','| None => step * gamma','C101: first round shrinks the step (claim differs for gamma <> 1)',[]),
(G,'new_step','step / (8 / 10)','step * (8 / 10)','C101: step shrinks when the count stays',[]),
(G,'new_step','if (bad <? o)%nat then step / gamma','if (o <? bad)%nat then step / gamma','C101: comparison swapped',[]),
(G,'perturb_points','(rev sl)','sl','C101: first sliver of a vertex wins',[]),
(G,'perturb_points','nth 0 (nth e t []) O =? v','nth 1 (nth e t []) O =? v','C101: second corner moved',[]),
(G,'perturb_points','step * h0 * d','step * d','C101: step not scaled with h0',[]),
(G,'sliver_loop','(Some (length sl)) p3','old p3','C101: old count never updated',[]),
(G,'sliver_loop','s_max_iter S - 1)','s_max_iter S)','C73: one more round',[]),
(G,'sliver_removal','(so_max_deg o * PI / 180)','(so_max_deg o)','C73/C55: upper bound left in degrees',[]),
(G,'sliver_removal','fuel 0 (1 / 10) None points','fuel 0 1 None points','C101: initial step',[]),
(RO,'sqdiff64','rnd64 (d * d)','rnd64 (d + d)','C98: doubled instead of squared',[]),
(RO,'ddisk64','sqdiff64 y yc','sqdiff64 y xc','C98: wrong centre',[]),
(RO,'dball64','+ sqdiff64 z zc','+ sqdiff64 z yc','C98: wrong centre',[]),
(RO,'dball64','sqdiff64 z zc)))','sqdiff64 z zc))) / 2','C98: halved',[]),
(OR,'det64','rnd64 (a * d) - rnd64 (b * c)','rnd64 (a * d) + rnd64 (b * c)','C100: sign',[]),
(OR,'simp_vol64','rnd64 (det64 ax ay bx by_ / 2)','rnd64 (det64 bx by_ ax ay / 2)','C100: sign reversed in 2D',[]),
(OR,'simp_vol64','det64 az ax bz bx * cy','det64 ax az bx bz * cy','C100: sign of a term in 3D',[]),
(OR,'orient64','Rltb (simp_vol64 (map (fun v => nth v p []) r)) 0','Rltb 0 (simp_vol64 (map (fun v => nth v p []) r))','C100: flips the positive cells',[]),
(OR,'fix_mesh_all64','if fix_orientation then map (orient64 p2) t2 else t2','t2','C100: never flips',[]),
(SN,'snap_width','* ptol','+ ptol','C97: width added',[]),
(SN,'bytes64','Ztrunc (v * bpow radix2 1074)','Ztrunc v','C97: only integer part compared',[]),
(SN,'snap1','(x / s))) * s','(x / s)))','C97: not scaled back',[]),
(SN,'snap_key','flat_map (snap1 s) q','snap1 s (nth 0 q 0)','C97: only x compared',[]),
(L,'coo_entries','[(1,2);(2,0);(0,1)]','[(1,2);(2,0)]','C54: third local edge missing',[]),
(L,'coo_entries','(b, a, -1)]','(b, a, 1)]','C54: sign',[]),
(L,'coo_at','(snd (fst e) =? u)','(snd (fst e) =? v)','C54: diagonal only',[]),
(L,'lap_matrix','if (v =? u)%nat then 1 else 0','0','C54: identity rows missing',[]),
(L,'lap_rhs','nth j (nth v p []) 0 else 0','0 else nth j (nth v p []) 0','C54: right hand side swapped',[]),
(L,'closest_node','map (fun r => sq2 r q) p','map (fun r => - sq2 r q) p','C52: farthest vertex held fixed',[]),
(L,'lap_loop','if Rltb move tol then p\'','if Rltb move tol then p','C52/C53: last sweep thrown away',[]),
(L,'laplacian2','bnd ++ map','map','C52: boundary not held',[]),
]
