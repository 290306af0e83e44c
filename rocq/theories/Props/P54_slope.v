(** C119: how fast the function of a domain can change, and what it says about the space around a point and about the mesh. *)
From Coq Require Import List Reals Bool Lra Lia Psatz.
From Verif Require Import Model.Base Model.SDF Model.Mesh Model.Formulas Model.Forces Model.Newton Model.Generator Spec.MeshTopo Spec.Geom Spec.Transform Spec.Solids Spec.Bars Proofs.ListAux Proofs.MeshAux Proofs.Euclid Proofs.SDFPrim Proofs.SDFBox Proofs.ForceProofs Proofs.NewtonProofs Proofs.LipProofs Proofs.GenLoop Props.P18_generate.
Import ListNotations.
Local Open Scope R_scope.

(** The function of every solid has slope at most L, 1/L being the shortest stretch vector used (L = 1 if nothing is shrunk). *)
Theorem C119_slope : forall L n d, 1 <= L -> solid L n d -> slope_le n L (d_eval d).
Proof. exact solid_slope. Qed.
Print Assumptions C119_slope.
(** A value below -L r: the ball of radius r around the point is inside; above L r: it is outside. *)
Theorem C119_clearance : forall L n d x r, 1 <= L -> solid L n d -> length x = n ->
  (d_eval d x <= - (L * r) -> forall y, length y = n -> edist x y <= r -> d_eval d y <= 0) /\
  (d_eval d x > L * r -> forall y, length y = n -> edist x y <= r -> d_eval d y > 0).
Proof.
  intros L n d x r HL S X. split; intros H y Y D; pose proof (solid_slope L n d HL S x y X Y) as Q; apply Rabs_le_inv in Q; pose proof (Rmult_le_compat_l L _ _ ltac:(lra) D); lra.
Qed.
Print Assumptions C119_clearance.
(** The way from an inner to an outer point crosses the zero set, at least |value|/L away from either. *)
Lemma seg_len t : forall x y, length x = length y -> length (on_segment t x y) = length x.
Proof. induction x as [|a x IH]; intros [|b y] H; cbn in *; try discriminate; [reflexivity|]. f_equal. apply IH. congruence. Qed.
Lemma seg_sq s t : forall x y, length x = length y -> sqdist (on_segment s x y) (on_segment t x y) = (s - t) ^ 2 * sqdist x y.
Proof. induction x as [|a x IH]; intros [|b y] H; cbn [on_segment sqdist] in *; try discriminate; [ring|]. rewrite IH by (cbn in H; congruence). ring. Qed.
Lemma seg_dist s t x y : length x = length y -> edist (on_segment s x y) (on_segment t x y) = Rabs (s - t) * edist x y.
Proof. intros H. unfold edist. rewrite seg_sq by exact H. rewrite sqrt_mult; [|apply pow2_ge_0|apply sqdist_nonneg]. f_equal. rewrite <- (sqrt_Rsqr_abs (s - t)). unfold Rsqr. f_equal. ring. Qed.
Lemma seg_0 : forall x y, length x = length y -> on_segment 0 x y = x.
Proof. induction x as [|a x IH]; intros [|b y] H; cbn in *; try discriminate; [reflexivity|]. f_equal; [ring|apply IH; congruence]. Qed.
Lemma seg_1 : forall x y, length x = length y -> on_segment 1 x y = y.
Proof. induction x as [|a x IH]; intros [|b y] H; cbn in *; try discriminate; [reflexivity|]. f_equal; [ring|apply IH; congruence]. Qed.
Theorem C119_crossing : forall L n d x y, 1 <= L -> solid L n d -> length x = n -> length y = n -> d_eval d x < 0 < d_eval d y ->
  exists t, 0 <= t <= 1 /\ d_eval d (on_segment t x y) = 0 /\ - d_eval d x <= L * edist x (on_segment t x y) /\ d_eval d y <= L * edist (on_segment t x y) y.
Proof.
  intros L n d x y HL S X Y (HX & HY). pose proof (solid_slope L n d HL S) as F. assert (XY : length x = length y) by congruence.
  set (f := fun t => d_eval d (on_segment t x y)). assert (C : continuity f).
  { intros t eps EP. set (K := L * edist x y + 1). assert (KP : 0 < K) by (unfold K; pose proof (edist_nonneg x y); nra). exists (eps / K). split; [apply Rlt_gt, Rdiv_lt_0_compat; lra|].
    intros s (_ & D). cbn in D |- *. unfold R_dist in *. unfold f. eapply Rle_lt_trans; [apply F; rewrite seg_len; congruence|]. rewrite seg_dist by exact XY.
    assert (Rabs (s - t) * K < eps). { apply (Rmult_lt_compat_r K) in D; [|exact KP]. unfold Rdiv in D. rewrite Rmult_assoc, Rinv_l in D by lra. lra. }
    pose proof (Rabs_pos (s - t)). unfold K in *. nra. }
  destruct (IVT f 0 1 C ltac:(lra)) as (t & T & Z); [unfold f; rewrite seg_0 by exact XY; exact HX|unfold f; rewrite seg_1 by exact XY; exact HY|].
  exists t. split; [exact T|]. split; [exact Z|]. assert (SL : length (on_segment t x y) = n) by (rewrite seg_len; congruence). unfold f in Z.
  pose proof (F _ _ X SL) as A. pose proof (F _ _ SL Y) as B. apply Rabs_le_inv in A. apply Rabs_le_inv in B. lra.
Qed.
Print Assumptions C119_crossing.
(** Stretch vectors shorter than 1 do make the function overestimate distances. *)
Theorem C119_shrunk_overestimates : exists d, solid 2 2 d /\ d_eval d [3; 0] = 5 /\ d_eval d [1 / 2; 0] = 0 /\ edist [3; 0] [1 / 2; 0] = 5 / 2.
Proof.
  exists (Disk 0 0 1 (manip2 (Some [1 / 2; 0]) 0 None)). assert (N : norm2 [1 / 2; 0] = 1 / 2) by (unfold norm2; cbn; replace (1 / 2 * (1 / 2) + (0 * 0 + 0)) with (1 / 2 * (1 / 2)) by ring; apply sqrt_square; lra).
  assert (E : forall x, d_eval (Disk 0 0 1 (manip2 (Some [1 / 2; 0]) 0 None)) [x; 0] = 2 * Rabs x - 1).
  { intros x. cbn [Disk make_prim d_eval]. unfold manipulate, manip2. cbn [m_rot m_trans m_stretch]. unfold Reqb. destruct (Req_EM_T 0 0); [|contradiction]. unfold scale_back, normalise. cbn [map]. rewrite N. cbn. unfold ddisk.
    match goal with |- sqrt ?e - 1 = _ => replace e with (Rsqr (2 * x)) by (unfold Rsqr; field) end. rewrite sqrt_Rsqr_abs, Rabs_mult, (Rabs_pos_eq 2) by lra. reflexivity. }
  split; [|split; [|split]].
  - apply s_disk; [|exact Logic.I]. cbn. split; [reflexivity|]. rewrite edist2. replace ((1 / 2 - 0) ^ 2 + (0 - 0) ^ 2) with (1 / 2 * (1 / 2)) by ring. rewrite sqrt_square by lra. lra.
  - rewrite E, Rabs_pos_eq by lra. lra.
  - rewrite E, Rabs_pos_eq by lra. lra.
  - rewrite edist2. replace ((3 - 1 / 2) ^ 2 + (0 - 0) ^ 2) with (5 / 2 * (5 / 2)) by field. apply sqrt_square. lra.
Qed.
Print Assumptions C119_shrunk_overestimates.
(** Repeat of a domain that is not mirror-symmetric jumps between the cells: no slope bounds it. *)
Lemma fold_low x : 0 <= x < 2 -> fold_coord x 4 = x.
Proof.
  intros H. destruct (fold_range x 4 ltac:(lra)) as (k & E & Q). rewrite E in *. assert (k = 0)%Z as ->; [|lra]. assert (-1 < IZR k < 1) by lra. assert (-1 < k < 1)%Z by (split; apply lt_IZR; lra). lia.
Qed.
Lemma fold_2 : fold_coord 2 4 = -2.
Proof. destruct (fold_range 2 4 ltac:(lra)) as (k & E & Q). rewrite E in *. assert (k = 1)%Z as ->; [|lra]. assert (0 < IZR k <= 1) by lra. assert (0 < k <= 1)%Z by (split; [apply lt_IZR|apply le_IZR]; lra). lia. Qed.
Theorem C119_repeat_jumps : exists d period, solid 1 3 d /\ forall eps, 0 < eps -> exists x y, length x = 3%nat /\ length y = 3%nat /\ edist x y <= eps /\
  let f := d_eval (Repeat (-10) 10 (-10) 10 (-10) 10 d period) in f x < 1 /\ f y > 2.
Proof.
  exists (Ball 1 0 0 (1 / 2) no_manip), [4; 4; 4]. split; [apply (s_ball 1 1 0 0 (1 / 2) None 0 0 0 None); exact Logic.I|]. intros eps EP.
  set (e := Rmin eps (1 / 2)). assert (E1 : 0 < e /\ e <= eps /\ e <= 1 / 2) by (unfold e, Rmin; destruct (Rle_dec eps (1 / 2)); lra). exists [2 - e; 0; 0], [2; 0; 0]. split; [reflexivity|]. split; [reflexivity|]. split.
  - rewrite edist3. replace ((2 - e - 2) ^ 2 + ((0 - 0) ^ 2 + (0 - 0) ^ 2)) with (e * e) by ring. rewrite sqrt_square; lra.
  - cbn zeta. cbn [Repeat d_eval]. unfold repeat_eval. assert (B : forall u, d_eval (Ball 1 0 0 (1 / 2) no_manip) [u; 0; 0] = Rabs (u - 1) - 1 / 2).
    { intros u. unfold Ball. cbn [make_prim d_eval]. unfold manipulate, no_manip. cbn [m_rot m_trans m_stretch]. unfold Reqb. destruct (Req_EM_T 0 0); [|contradiction]. unfold dball. rewrite <- sqrt_Rsqr_abs. unfold Rsqr. f_equal. f_equal. ring. }
    unfold map2. cbn [combine map fst snd]. rewrite fold_2, !fold_low by lra. rewrite !B, !block_bd. split.
    + apply Rmax_lub_lt; [rewrite Rabs_pos_eq; lra|]. cbn. repeat apply Rmax_lub_lt; lra.
    + eapply Rlt_gt, Rlt_le_trans; [|apply Rmax_l]. rewrite Rabs_left1; lra.
Qed.
Print Assumptions C119_repeat_jumps.

(** ---- the mesh ---- *)
Lemma sq_map (f g : nat -> R) l : sqdist (map f l) (map g l) = fold_right Rplus 0 (map (fun i => (f i - g i) ^ 2) l).
Proof. induction l as [|a l IH]; cbn [map sqdist fold_right]; [reflexivity|]. rewrite IH. reflexivity. Qed.
Lemma sum_scale (a : R) (g : nat -> R) l : fold_right Rplus 0 (map (fun i => a * g i) l) = a * fold_right Rplus 0 (map g l).
Proof. induction l as [|b l IH]; cbn [map fold_right]; [ring|]. rewrite IH. ring. Qed.
(** a convex combination is no farther than the farthest corner *)
Definition corner (n : nat) (p : list (list R)) (v : nat) : list R := map (fun i => nth i (nth v p []) 0) (seq 0 n).
Lemma mix_near n p r w c rho : length c = n -> length w = length r -> Forall (fun x => 0 <= x) w -> fold_right Rplus 0 w = 1 ->
  (forall v, In v r -> edist (corner n p v) c <= rho) -> edist (mix n p r w) c <= rho.
Proof.
  intros C LW W S H.
  set (part := fun r w => map (fun i => fold_right Rplus 0 (map (fun jw => snd jw * (nth i (nth (fst jw) p []) 0 - nth i c 0)) (combine r w))) (seq 0 n)).
  set (Z := map (fun _ : nat => 0) (seq 0 n)). assert (CE : c = map (fun i => nth i c 0) (seq 0 n)).
  { rewrite <- C. clear. induction c as [|a c IH]; [reflexivity|]. cbn [length seq map nth]. f_equal. rewrite <- seq_shift, map_map. exact IH. }
  assert (E : edist (mix n p r w) c = edist (part r w) Z).
  { unfold edist. f_equal. rewrite CE at 1. unfold mix, part, Z. rewrite !sq_map. f_equal. apply map_ext. intros i. f_equal.
    assert (G : forall r w, length w = length r -> fold_right Rplus 0 (map (fun jw => snd jw * nth i (nth (fst jw) p []) 0) (combine r w)) - fold_right Rplus 0 w * nth i c 0 = fold_right Rplus 0 (map (fun jw => snd jw * (nth i (nth (fst jw) p []) 0 - nth i c 0)) (combine r w))).
    { clear. induction r as [|v r IH]; intros [|a w] L; cbn in *; try discriminate; [ring|]. rewrite <- IH by congruence. ring. }
    rewrite <- (G r w LW), S. ring. }
  rewrite E. assert (G : forall r w, length w = length r -> Forall (fun x => 0 <= x) w -> (forall v, In v r -> edist (corner n p v) c <= rho) -> edist (part r w) Z <= fold_right Rplus 0 w * rho).
  { clear - CE. induction r as [|v r IH]; intros [|a w] L W H; cbn [length] in L; try discriminate.
    - unfold part. cbn [combine map fold_right]. unfold edist. rewrite sqdist_refl, sqrt_0. lra.
    - inversion W as [|? ? A W']; subst. specialize (IH w ltac:(congruence) W' (fun u I => H u (or_intror I))). pose proof (H v (or_introl eq_refl)) as HV.
      pose proof (triangle (part (v :: r) (a :: w)) (part r w) Z ltac:(unfold part; rewrite !map_length; reflexivity) ltac:(unfold part, Z; rewrite !map_length; reflexivity)) as T.
      assert (Q : edist (part (v :: r) (a :: w)) (part r w) = a * edist (corner n p v) c).
      { unfold edist. replace a with (sqrt (a * a)) at 2 by (apply sqrt_square, A). rewrite <- sqrt_mult by (try apply sqdist_nonneg; apply Rle_0_sqr). f_equal. rewrite CE at 1. unfold part, corner. rewrite !sq_map, <- sum_scale. f_equal. apply map_ext. intros i. cbn [combine map fold_right fst snd]. ring. }
      cbn [fold_right]. pose proof (Rmult_le_compat_l a _ _ A HV). lra. }
  specialize (G r w LW W H). rewrite S in G. lra.
Qed.
(** A point at distance delta from the centre of a returned cell has a value below L delta; so no point of a cell is outside of the
    domain by as much as L times the distance of the cell's corners from its centre. *)
Theorem C119_mesh : forall L n B d o h fuel p t k, 1 <= L -> solid L n d -> good_backend B ->
  length (d_bbox d) = (2 * n)%nat -> generate_mesh B (DObject d) (SScalar h) o fuel = Some (Ok (p, t), k) ->
  exists h0, the_h0 (SScalar h) o = Some h0 /\
  (forall r y, In r t -> length y = n -> d_eval d y < L * edist y (cell_centre n p r) - h0 / 1000) /\
  (forall r w rho, In r t -> length w = length r -> Forall (fun x => 0 <= x) w -> fold_right Rplus 0 w = 1 ->
    (forall v, In v r -> edist (corner n p v) (cell_centre n p r) <= rho) -> d_eval d (mix n p r w) < L * rho - h0 / 1000).
Proof.
  intros L n B d o h fuel p t k HL S HB N H. destruct (C69_cells_inside _ _ _ _ _ _ _ _ HB H) as (fd & h0 & dim & F & H0 & D & DD & _ & _ & C & _).
  cbn in F. injection F as <-. exists h0. split; [exact H0|].
  assert (dim = n) as -> by (rewrite DD; cbn [full_bbox size_bbox dom_bbox]; rewrite N; apply Nat.div2_double).
  assert (CL : forall r, length (cell_centre n p r) = n) by (intros r; unfold cell_centre; rewrite map_length, seq_length; reflexivity).
  assert (G : forall r y, In r t -> length y = n -> d_eval d y < L * edist y (cell_centre n p r) - h0 / 1000).
  { intros r y I Y. pose proof (solid_slope L n d HL S y _ Y (CL r)) as Q. apply Rabs_le_inv in Q. pose proof (C r I). lra. }
  split; [exact G|]. intros r w rho I LW W SW HR. assert (ML : length (mix n p r w) = n) by (unfold mix; rewrite map_length, seq_length; reflexivity).
  pose proof (G r _ I ML) as Q. pose proof (mix_near n p r w _ rho (CL r) LW W SW HR) as MN. pose proof (Rmult_le_compat_l L _ _ ltac:(lra) MN). lra.
Qed.
Print Assumptions C119_mesh.

(** the hypotheses of the theorems above are met: five corners of the unit cube on the sphere around it, two cells *)
Definition round : domain := Ball (1 / 2) (1 / 2) (1 / 2) (sqrt 3 / 2) no_manip.
Lemma round_value x y z : d_eval round [x; y; z] = sqrt ((x - 1 / 2) ^ 2 + (y - 1 / 2) ^ 2 + (z - 1 / 2) ^ 2) - sqrt 3 / 2.
Proof. unfold round, Ball. cbn [make_prim d_eval]. unfold manipulate, no_manip. cbn [m_rot m_trans m_stretch]. unfold Reqb. destruct (Req_EM_T 0 0); [reflexivity|contradiction]. Qed.
Lemma sqrt34 : sqrt (3 / 4) = sqrt 3 / 2.
Proof. replace (3 / 4) with (3 * (1 / 2 * (1 / 2))) by field. rewrite sqrt_mult by lra. rewrite sqrt_square by lra. field. Qed.
Lemma sqrt3_big : 17 / 10 < sqrt 3.
Proof. rewrite <- (sqrt_square (17 / 10)) by lra. apply sqrt_lt_1; lra. Qed.
Lemma round_five v : (v < 5)%nat -> d_eval round (nth v five []) = 0.
Proof.
  intros H. do 5 (destruct v as [|v]; [cbn [five nth]; rewrite round_value; match goal with |- sqrt ?e - _ = _ => replace e with (3 / 4) by field end; rewrite sqrt34; ring|]). lia.
Qed.
Lemma round_centres : d_eval round [1/4;1/4;1/4] < - (1 / 1000) /\ d_eval round [1/2;1/2;1/2] < - (1 / 1000).
Proof.
  rewrite !round_value. pose proof sqrt3_big. split.
  - replace ((1 / 4 - 1 / 2) ^ 2 + (1 / 4 - 1 / 2) ^ 2 + (1 / 4 - 1 / 2) ^ 2) with (3 / 4 * (1 / 2 * (1 / 2))) by field. rewrite sqrt_mult by lra. rewrite sqrt_square, sqrt34 by lra. lra.
  - replace ((1 / 2 - 1 / 2) ^ 2 + (1 / 2 - 1 / 2) ^ 2 + (1 / 2 - 1 / 2) ^ 2) with 0 by ring. rewrite sqrt_0. lra.
Qed.
Lemma round_mesh : generate_mesh five_backend (DObject round) (SScalar 1) five_opts 1 = Some (Ok (five, map (orient five) two_tets), 1%nat).
Proof.
  unfold generate_mesh, prepare. cbn [meshed_fd size_bbox dom_fd full_bbox dom_bbox]. assert (length (d_bbox round) = 6%nat) as -> by (unfold round, Ball; rewrite no_manip_bbox; reflexivity). cbn [Nat.div2 Nat.eqb orb negb the_h0 size_hmin start_points five_opts o_points o_max_iter rbind].
  rewrite (proj2 (Rltb_false 1 0)) by lra. cbn [orb negb].
  set (P := mkProblem _ _ _ _ _ _ _ _ _ _ _ _). assert (g_dim P = 3%nat /\ g_fd P = d_eval round /\ g_h0 P = 1 /\ g_geps P = 0 * 1 /\ g_max_iter P = 1 /\ g_checks P = false) as (D & F & H0 & G & M & CH) by (repeat split).
  clearbody P. unfold five. fold five. cbn [mesh_loop five_backend b_tri]. fold five_backend. unfold five at 1. cbv iota. fold five.
  rewrite M. rewrite (proj2 (Reqb_true _ _)) by (cbn [INR]; lra). unfold finish, termination.
  assert (forall r, centroid 3 (pts_of five (orient five r)) = centroid 3 (pts_of five r)) as OC.
  { intros r. unfold centroid, pts_of. apply map_ext. intros j. f_equal. rewrite !map_map. unfold orient. destruct (Rltb _ _); [|reflexivity].
    destruct r as [|a [|b r]]; try reflexivity. cbn [swap2 map]. unfold Laplace.rtotal. cbn [fold_right]. ring. }
  destruct five_centres as [C1 C2]. destruct round_centres as [D1 D2].
  assert (remove_outside (g_dim P) (g_fd P) (g_geps P) five two_tets = two_tets) as ->.
  { rewrite D, F, G. unfold remove_outside, two_tets. cbn [filter]. rewrite C1, C2, !(proj2 (Rltb_true _ _)) by lra. reflexivity. }
  rewrite D, CH. cbn [Nat.eqb rbind fst snd]. rewrite five_fix. cbn [rbind fst snd].
  assert (improve_level_set (b_uniqR five_backend) (g_fd P) (g_deps P) 3 five (map (orient five) two_tets) = Ok five) as EI.
  { unfold improve_level_set. destruct (get_boundary_vertices _ _ _) as [|b bid] eqn:E; [exfalso|].
    - revert E. unfold two_tets. cbn [map b_uniqR five_backend]. unfold orient. do 2 (destruct (Rltb _ _); cbn [swap2]); vm_compute; discriminate.
    - f_equal. destruct (improve_loop_spec (g_fd P) (g_deps P) (b :: bid) (seq 0 5) 1 five) as (L & I1 & I2 & _). apply (nth_ext _ _ [] []); [exact L|].
      rewrite L. intros v H. destruct (in_dec Nat.eq_dec v (b :: bid)) as [I|I]; [|apply I1; assumption]. apply I2; [exact H|exact I|]. rewrite F. apply round_five, H. }
  rewrite EI. cbn [rbind]. rewrite F, H0. unfold remove_outside, two_tets. cbn [map filter]. rewrite !OC, C1, C2.
  rewrite !(proj2 (Rltb_true _ _)) by lra. reflexivity.
Qed.
Example C119_case : (solid 1 3 round /\ good_backend five_backend /\ length (d_bbox round) = (2 * 3)%nat /\ exists p t, generate_mesh five_backend (DObject round) (SScalar 1) five_opts 1 = Some (Ok (p, t), 1%nat) /\ t <> []) /\
  (exists d, Difference (1 / 10) [Cube 0 1 0 1 0 1 (manip3 (Some [2; 0; 0]) 1 0 0 None); Repeat 0 1 0 1 0 1 (Ball 0 0 0 1 no_manip) [3; 3; 3]; Torus 2 1 no_manip] = Ok d /\ solid 1 3 d).
Proof.
  split.
  - split; [apply (s_ball 1 (1 / 2) (1 / 2) (1 / 2) (sqrt 3 / 2) None 0 0 0 None); exact Logic.I|]. split; [split; apply nodup_uniq_ok|]. split; [unfold round, Ball; rewrite no_manip_bbox; reflexivity|].
    do 2 eexists. split; [exact round_mesh|discriminate].
  - assert (B : exists b1 b2 b3 b4 b5 b6, d_bbox (Cube 0 1 0 1 0 1 (manip3 (Some [2; 0; 0]) 1 0 0 None)) = [b1; b2; b3; b4; b5; b6]).
    { unfold Cube. cbn [make_prim d_bbox]. unfold configure, build_translation, build_rotation, manip3. cbn [m_rot m_trans Nat.eqb]. unfold Reqb. destruct (Req_EM_T 1 0); [lra|]. destruct (Req_EM_T 0 0); [|contradiction]. cbn [andb]. cbn. do 6 eexists. reflexivity. }
    assert (BT : d_bbox (Torus 2 1 no_manip) = [-2 * (2 * Rmax 2 1); 2 * (2 * Rmax 2 1); -2 * (2 * Rmax 2 1); 2 * (2 * Rmax 2 1); -2 * (2 * Rmax 2 1); 2 * (2 * Rmax 2 1)]) by (unfold Torus; apply no_manip_bbox).
    assert (OKD : exists d, Difference (1 / 10) [Cube 0 1 0 1 0 1 (manip3 (Some [2; 0; 0]) 1 0 0 None); Repeat 0 1 0 1 0 1 (Ball 0 0 0 1 no_manip) [3; 3; 3]; Torus 2 1 no_manip] = Ok d).
    { destruct B as (b1 & b2 & b3 & b4 & b5 & b6 & B). unfold Difference, set_init. cbn [dims_guard]. set (C := Cube _ _ _ _ _ _ (manip3 _ _ _ _ _)) in *. set (T := Torus _ _ _) in *. change (d_dim C) with 3%nat. cbn [set_bbox get_all fold_right]. rewrite B, BT. cbn. eexists. reflexivity. }
    destruct OKD as (d & OKD). exists d. split; [exact OKD|]. apply (s_difference 1 (1 / 10) 3 _ d ltac:(lra)) in OKD; [exact OKD|]. intros e [<- | [<- | [<- | []]]].
    + apply s_cube; [|exact Logic.I]. cbn. split; [reflexivity|]. rewrite edist3. replace ((2 - 0) ^ 2 + ((0 - 0) ^ 2 + (0 - 0) ^ 2)) with (2 * 2) by ring. rewrite sqrt_square; lra.
    + apply s_repeat; try lra; [apply (s_ball 1 0 0 0 1 None 0 0 0 None); exact Logic.I|]. intros x y z. unfold Ball. cbn [make_prim d_eval]. unfold manipulate, no_manip. cbn [m_rot m_trans m_stretch]. unfold Reqb. destruct (Req_EM_T 0 0); [|contradiction]. unfold dball. rewrite !Rminus_0_r, !pow2_abs. reflexivity.
    + apply (s_torus 1 2 1 None 0 0 0 None); exact Logic.I.
Qed.
