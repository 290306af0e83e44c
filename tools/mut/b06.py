G='Model/Generator.v'; P='Model/Parallel.v'; U='Model/UFilter.v'; R='Model/SizingRanks.v'; S='Model/Sizing.v'
MUT=[
(G,'argmin2','if Rltb y x then 1%nat else 0%nat','if Rltb x y then 1%nat else 0%nat','C92: the better entity of an overlapping pair is deleted',[]),
(G,'argmin2','| None, _ => 0%nat','| None, _ => 1%nat','C92: a NaN quality wins',[]),
(G,'lint_delete','with O => fst e | _ => snd e end) pairs','with O => fst e | _ => fst e end) pairs','C92: always the first of the pair deleted',[]),
(G,'drop_rows','filter (fun e => negb (existsb (Nat.eqb e) del)) (seq 0 (length t))','filter (fun e => existsb (Nat.eqb e) del) (seq 0 (length t))','C92: keeps the losers',[]),
(G,'linter','let del := lint_delete p t (do_any_overlap dim p t (b_ve B t)) in','let del := lint_delete p t (do_any_overlap 2 p t (b_ve B t)) in','C92: 2D overlap test in 3D',[]),
(P,'recv_pairs','Inp s 12%nat (fun a => Inp s 13%nat','Inp s 13%nat (fun a => Inp s 12%nat','C89: points and cells received in the other order (tags select them: rank 0 takes the cells for points)',[]),
(P,'aggregate_p','(Out 0%nat 12%nat (MPts (fst mesh)) (Out 0%nat 13%nat (MCells (snd mesh)) (Done ([], []))))','(Out 0%nat 13%nat (MPts (fst mesh)) (Out 0%nat 12%nat (MCells (snd mesh)) (Done ([], []))))','C89: tags of points and cells swapped by the senders',[]),
(P,'exchange_p','Inp (rank + 1)%nat 11%nat (fun m => f (pts_in m)) else f []','Inp (rank + 1)%nat 12%nat (fun m => f (pts_in m)) else f []','C89: waits for a tag nobody sends',[]),
(P,'exchange_p','MPts (firstn (nsa ex) (skipn (nsb ex) (rows ex)))','MPts (firstn (nsa ex) (rows ex))','C89: rows for below sent above',[]),
(P,'par_loop','(fun recv =>\n          let \'(p3, t4) := with_ghosts P ext rank count p recv in','(fun recv =>\n          let \'(p3, t4) := with_ghosts P ext rank count p [] in','C89: received points ignored',[]),
(P,'par_loop','let p\' := delete_ghosts (next_points P p3 t4) (recv_count ex recv) in','let p\' := next_points P p3 t4 in','C89: ghosts kept',[]),
(P,'decimate','Rltb (nth i u 0) (r0m ^ dim / fh (nth i p []) ^ dim)','Rltb (r0m ^ dim / fh (nth i p []) ^ dim) (nth i u 0)','C89: rejection reversed',[]),
(P,'own_grid','make_init_points (pairs_of bbox) rank size axis h0','make_init_points (pairs_of bbox) 0 1 axis h0','C89: every rank holds the whole grid',[]),
(P,'user_points_p','blocker (q_rnd Q) dim points size axis','blocker (q_rnd Q) dim points size 0','C90: axis option ignored',[]),
(P,'take_p','take_p size rank rest (pts_in m) (pts_in e)','take_p size rank rest pts (pts_in e)','C90: received block forgotten',[]),
(P,'deal_p','Out l 12%nat (MPts b) (pbind (bcast_p size 0 0 (MPts ext))','Out l 12%nat (MPts ext) (pbind (bcast_p size 0 0 (MPts ext))','C90: extents sent instead of blocks',[]),
(P,'generate_points_p','| [] => Done (Err ValueError)                                             (* r0.min() of an empty array *)\n  | _ => pbind','| [] => pbind (allreduce_min size rank 1) (fun _ => Done (Err ValueError))\n  | _ => pbind','C91: a rank without points takes part in the reduction before failing (others go on)',[]),
(P,'table','rank size)','(S rank) size)','C89/C93: table of the next rank',[]),
(P,'par_finish','run_fix (q_serial Q rank) p t','Ok (p, t)','C89: local meshes not cleaned before aggregation',[]),
(U,'reflect','(2 * n - 1 - m)','(2 * n - 2 - m)','C94: mirror without the edge sample',[]),
(U,'mean_line','/ INR w.','.','C94: sum instead of mean',[]),
(U,'mean_line','Z.of_nat (w / 2)','Z.of_nat w','C94: window to the left only',[]),
(U,'along','if Rltb 1 s then','if Rltb s 1 then','C94: smoothing only for small windows',[]),
(U,'windows','repeat s (adim vp)','[s]','C94: scalar stencil used for the first axis only',[]),
(U,'uniform_filter','along (nth 2 win 0) mean2','along (nth 2 win 0) mean1','C94: third axis never averaged',[]),
(R,'sizing_rank','bcast_p size rank 0 (MPts [b0])','bcast_p size rank 0 (MPts [b])','C96: box before padding broadcast',[]),
(R,'sizing_rank','if (1 <? size)%nat then pbind','if (2 <? size)%nat then pbind','C96: no broadcast with two ranks',[]),
(R,'rank0_sizing','else SzErr ValueError','else size_function ufilter rnd o b vp','C96/C19: unknown options accepted',[]),
(P,'deal_p','| Some b => Out l 12%nat (MPts b)','| Some b => Out (S l) 12%nat (MPts b)','C90: blocks sent to the wrong rank',[]),
('Model/Process.v','ps_receive','take t (pc s p q) = Some (m, c) ->','take t (rev (pc s p q)) = Some (m, c) ->','C88: last message first',[]),
('Model/Process.v','ps_buffer','pc s p q ++ [(t, m)]','(t, m) :: pc s p q','C88: messages overtake each other',[]),
('Model/Snap.v','snap1','bytes64 v (Reqb v 0 && Rltb x 0)','bytes64 v false','C97: no negative zero (the negative theorems fail)',[]),
('Model/Snap.v','snap1','ZnearestE (rnd64 (x / s))','Zfloor (rnd64 (x / s))','C97: floor instead of round',[]),
('Model/Snap.v','snap_width','rnd64 (max_list (column j p) - min_list (column j p))','rnd64 (max_list (column j p))','C97: width from the maxima only',[]),
('Model/Formulas.v','calc_re_ratios','np_div (map (fun e => sqrt (ball (pts_of p e))) t)','np_div (map (fun e => ball (pts_of p e)) t)','C50: squared radius',[]),
]
