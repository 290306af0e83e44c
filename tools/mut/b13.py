IN='Model/Int32.v'; CR='Model/Crash.v'; GE='Model/Generator.v'; PA='Model/Parallel.v'; NE='Model/Newton.v'; MG='Model/Migration.v'; ME='Model/Mesh.v'
MUT=[
(GE,'termination','if smooth then (b_solve','if true then (b_solve','C114: always smoothed',['C114_unsmoothed']),
(GE,'termination','run_delete B (15 / 100) (fst pt1)','run_delete B (95 / 100) (fst pt1)','C114: boundary triangles below 0.95 deleted',['C114_nothing_else_dropped']),
(GE,'finish','match g_subs P with None => g_improve P | Some _ => false end','g_improve P','C114: smoothed although subdomains are given',['C114_unsmoothed']),
(GE,'finish','Ok (p2, remove_outside (g_dim P) (g_fd P) (g_h0 P * (1 / 1000)) p2 (snd pt1))','Ok (p2, snd pt1)','C114: cells outside not dropped at the end',[]),
(GE,'finish','(g_h0 P * (1 / 1000)) p2 (snd pt1)','(g_geps P) p2 (snd pt1)','C114: other tolerance at the end',[]),
(GE,'mesh_loop','Some (finish B P p1 t1, S count)','Some (finish B P (next_points P p1 t1) t1, S count)','C114: points moved once more before the last stage',[]),
(GE,'mesh_loop','Some (finish B P p1 t1, S count)','Some (finish B P p1 t0, S count)','C69: cells outside not removed before the last stage',[]),
(GE,'drop_rows','filter (fun e => negb (existsb (Nat.eqb e) del)) (seq 0 (length t))','filter (fun e => existsb (Nat.eqb e) del) (seq 0 (length t))','C92: linter keeps the wrong cells',[]),
(GE,'run_fix','p t true true with','p t false true with','C114: unused vertices kept by the last cleaning (smoothing then undetermined)',[]),
(GE,'linter','run_fix B p (drop_rows del t)','run_fix B p t','C92: overlapping cells kept',[]),
(GE,'termination','if checks then linter B dim (10 / 100) (fst pt3) (snd pt3) else','if checks then linter B dim (50 / 100) (fst pt3) (snd pt3) else','C111: other quality threshold in the checks',[]),
(GE,'termination','if checks then linter B dim (10 / 100) (fst pt3) (snd pt3) else','if negb checks then linter B dim (10 / 100) (fst pt3) (snd pt3) else','C111: checks when switched off',[]),
(IN,'int_ok','(z <=? 2 ^ 31 - 1)','(z <=? 2 ^ 31)','C112: int holds 2^31',[]),
(IN,'int_ok','(- 2 ^ 31 <=? z) && (z <=? 2 ^ 31 - 1)','(- 2 ^ 15 <=? z) && (z <=? 2 ^ 15 - 1)','C112: 16-bit ints',[]),
(IN,'sub2ind_i','obind (isub col 1) (fun c => obind (imul c nrows)','obind (isub col 0) (fun c => obind (imul c nrows)','C112: column index not shifted',[]),
(IN,'sub2ind_i','obind (imul z a) (fun z => iadd c z)','obind (imul z a) (fun z => isub c z)','C112: layer offset subtracted',[]),
(IN,'ind2sub_i','obind (ck (1 + Z.quot t1 nrows))','obind (ck (1 + Z.quot t1 ncols))','C112: divided by the wrong extent',[]),
(IN,'ind2sub_i','obind (isub k 1) (fun k1 =>','obind (isub k 0) (fun k1 =>','C112: layer not shifted',[]),
(IN,'stencil_i','obind (iadd a 1) (fun inod =>','obind (iadd a 0) (fun inod =>','C112: node number zero based',[]),
(IN,'stencil_i','sub2ind_i ipos (Z.min jn d1) kpos','sub2ind_i ipos (Z.min jn d0) kpos','C112: clamped with the wrong extent',[]),
(IN,'hj_loop_i','obind (iadd iter 1) (fun iter\' =>','obind (iadd iter 2) (fun iter\' =>','C112: iteration counter by two',[]),
(IN,'c_limgrad_i','obind (imul d0 d1) (fun a => obind (imul a d2) (fun n =>','obind (imul d0 d1) (fun a => obind (Some (a * d2)) (fun n =>','C112: product of the extents in 64 bits: undefined only later',[]),
(CR,'cstep','dd p = false -> pp s p = Out q t m kp ->\n    cstep (CNet s dd) (CNet (PNet (upd (pp s) p kp) (upd2','pp s p = Out q t m kp ->\n    cstep (CNet s dd) (CNet (PNet (upd (pp s) p kp) (upd2','C113: the dead go on sending',[]),
(CR,'cstep','(forall q, exists lost, pc s p q = kept q ++ lost) ->','True ->','C113: messages of the dead replaced by anything',[]),
(PA,'aggregate_p','(Out 0%nat 12%nat (MPts (fst mesh)) (Out 0%nat 13%nat (MCells (snd mesh)) (Done ([], []))))','(Done ([], []))','C113: ranks do not send their mesh',[]),
(PA,'aggregate_p','(Out 0%nat 12%nat (MPts (fst mesh)) (Out 0%nat 13%nat (MCells (snd mesh)) (Done ([], []))))','(Out 0%nat 13%nat (MCells (snd mesh)) (Out 0%nat 12%nat (MPts (fst mesh)) (Done ([], []))))','C89: cells sent before points',[]),
(PA,'par_finish','else Done (Some (Ok None)))','else Done (Some (Ok (Some g))))','C113: every rank returns a mesh',[]),
(PA,'par_finish','| Err e => Done (Some (Err e))\n  | Ok mesh','| Err e => Done (Some (Ok None))\n  | Ok mesh','C113: a rank whose clean-up fails returns normally',[]),
(PA,'par_loop','if Reqb (INR count) (g_max_iter P - 1) then par_finish P rank p3 t4','if Reqb (INR count) (g_max_iter P - 1) then par_finish P rank p t4','C89: last mesh without the ghost points',[]),
]
