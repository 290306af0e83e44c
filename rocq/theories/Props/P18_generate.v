(** generate_mesh: iteration budget, result, domain actually meshed (C68, C69, C72). *)
From Coq Require Import Reals List Arith Bool Lra Lia Permutation ZArith.
From Verif Require Import Model.Base Model.SDF Model.Mesh Model.Formulas Model.Forces Model.Newton Model.Generator Spec.MeshTopo Spec.Geom Spec.Boxes Spec.Bars.
From Verif Require Import Proofs.ListAux Proofs.MeshAux Proofs.SDFPrim Proofs.SDFBox Proofs.ForceProofs Proofs.NewtonProofs Proofs.GenLoop.
Import ListNotations.
Local Open Scope R_scope.

(** ---- C68: iteration budget ---- *)
Lemma generate_prep B d s o P p : prepare B d s o = Ok (P, p) ->
  g_max_iter P = o_max_iter o /\ 0 <= o_max_iter o /\ meshed_fd d s = Some (g_fd P) /\ the_h0 s o = Some (g_h0 P) /\ (g_dim P = 2%nat \/ g_dim P = 3%nat) /\
  g_dim P = Nat.div2 (length (full_bbox d s)) /\ p <> [].
Proof.
  unfold prepare. destruct (meshed_fd d s) as [fd|]; [|discriminate]. destruct (the_h0 s o) as [h0|]; [|discriminate].
  destruct (Rltb h0 0); [discriminate|]. destruct (negb _) eqn:E; [discriminate|]. apply negb_false_iff, orb_true_iff in E. rewrite !Nat.eqb_eq in E.
  destruct (start_points _ _ _ _ _ _ _ _ _) as [q|]; [|discriminate]. cbn [rbind]. destruct (Rltb (o_max_iter o) 0) eqn:M; [discriminate|].
  apply Rltb_false in M. destruct q as [|x q]; [discriminate|]. intros H. inversion H; subst. cbn [g_max_iter g_fd g_h0 g_dim]. repeat split; try assumption; try reflexivity. discriminate.
Qed.

(** With max_iter a positive whole number n the call ends after at most n triangulations, and after exactly n unless it raises
    an error, whatever the back end does. *)
Theorem C68_budget : forall B d s o n, o_max_iter o = INR n -> (1 <= n)%nat ->
  exists r k, (k <= n)%nat /\ (forall out, r = Ok out -> k = n) /\ forall fuel, (n <= fuel)%nat -> generate_mesh B d s o fuel = Some (r, k).
Proof.
  intros B d s o n M N. unfold generate_mesh. destruct (prepare B d s o) as [[P p]|e] eqn:E.
  - destruct (generate_prep _ _ _ _ _ _ E) as (M' & _). destruct (loop_total B P n (eq_trans M' M) n 0 p N ltac:(lia)) as (r & k & H & L).
    exists r, k. split; [lia|]. split.
    + intros out ->. destruct (loop_ok _ _ _ _ _ _ _ H) as (_ & Q & _). rewrite M', M in Q. apply INR_eq in Q. congruence.
    + intros fuel F. induction F as [|fuel F IH]; [exact H|apply loop_more, IH].
  - exists (Err e), 0%nat. split; [lia|]. split; [discriminate|reflexivity].
Qed.
Print Assumptions C68_budget.
(** With any other max_iter (0, fractions) no run of any length returns a mesh. *)
Theorem C68_otherwise_no_mesh : forall B d s o, (forall n, (1 <= n)%nat -> o_max_iter o <> INR n) ->
  forall fuel r k, generate_mesh B d s o fuel = Some (r, k) -> exists e, r = Err e.
Proof.
  intros B d s o N fuel r k H. destruct r as [out|e]; [|eauto]. exfalso. unfold generate_mesh in H. destruct (prepare B d s o) as [[P p]|e] eqn:E; [|discriminate].
  destruct (generate_prep _ _ _ _ _ _ E) as (M' & _). destruct (loop_ok _ _ _ _ _ _ _ H) as (L & Q & _). apply (N k); [lia|congruence].
Qed.
Print Assumptions C68_otherwise_no_mesh.
(** A negative max_iter is refused before any triangulation. *)
Theorem C68_negative_refused : forall B d s o fuel, o_max_iter o < 0 -> exists e, generate_mesh B d s o fuel = Some (Err e, 0%nat).
Proof.
  intros B d s o fuel H. unfold generate_mesh. destruct (prepare B d s o) as [[P p]|e] eqn:E; [|eauto]. apply generate_prep in E. lra.
Qed.
Print Assumptions C68_negative_refused.

(** a back end that returns the points as they are, without cells *)
Definition lazy_backend : backend :=
  mkBackend (fun _ p => (p, [])) (nodup key_dec) (nodup row_dec) (fun _ x => map up x) ve_pairs (fun p _ => p) (fun n => repeat 0 n).
Lemma nodup_uniq_ok {A} (dec : forall x y : A, {x = y} + {x <> y}) : uniq_ok (nodup dec).
Proof. intros l. split; [apply NoDup_nodup|intros x; apply nodup_In]. Qed.
Definition one_point (m : R) : gen_opts := mkOpts m false [] (Some [[0; 0]]) (3 / 10) (1 / 10) None true false None.
(** and such a call can run forever: with max_iter = 0 (or any fraction) and one point it does *)
Theorem C68_runs_forever : forall m, 0 <= m -> (forall n, (1 <= n)%nat -> m <> INR n) ->
  good_backend lazy_backend /\ forall fuel, generate_mesh lazy_backend (DFunction (fun _ => -1) [0; 1; 0; 1]) (SScalar 1) (one_point m) fuel = None.
Proof.
  intros m M N. split; [split; apply nodup_uniq_ok|]. intros fuel. unfold generate_mesh.
  destruct (prepare _ _ _ _) as [[P p]|e] eqn:E.
  - unfold prepare in E. cbn [meshed_fd size_bbox the_h0 size_hmin full_bbox dom_bbox length Nat.div2 Nat.eqb orb negb start_points one_point o_points o_max_iter rbind dom_fd] in E.
    rewrite (proj2 (Rltb_false 1 0)) in E by lra. rewrite (proj2 (Rltb_false m 0)) in E by lra.
    assert (g_max_iter P = m /\ g_dim P = 2%nat /\ g_fd P = (fun _ => -1) /\ g_delta_t P = 3 / 10 /\ g_h0 P = 1 /\ p = [[0;0]] /\ g_subs P = None) as (M' & D & F & DT & H0 & -> & SU)
      by (inversion E; subst; repeat split; reflexivity). clear E.
    assert (forall fuel count, mesh_loop lazy_backend P fuel count [[0;0]] = None) as K; [|apply K].
    induction fuel0 as [|k IH]; intros count; [reflexivity|]. cbn [mesh_loop lazy_backend b_tri]. fold lazy_backend.
    assert (Reqb (INR count) (g_max_iter P - 1) = false) as -> by (apply Reqb_false; intros Q; apply (N (S count)); [lia|rewrite S_INR; lra]).
    unfold remove_outside. cbn [filter]. rewrite D.
    assert (compute_forces 2 (g_fh P) (L0mult 2) [[0; 0]] [] = [[0; 0]]) as EF by reflexivity.
    assert (zero_rows (ifix_of P [[0;0]]) [[0;0]] = [[0;0]]) as EZ by (unfold zero_rows; cbn [length seq map nth]; destruct (existsb _ _); reflexivity).
    rewrite EF, EZ. assert (max_move (g_delta_t P) [[0;0]] = 0) as EM.
    { unfold max_move. cbn [map max_list Laplace.rtotal fold_right]. replace (0 * 0 + (0 * 0 + 0)) with 0 by ring. rewrite sqrt_0. ring. }
    rewrite EM, (proj2 (Rltb_true _ _)) by lra.
    assert (next_points P [[0;0]] [] = [[0;0]]) as ->; [|apply IH].
    unfold next_points. rewrite SU. cbn [project_levels]. unfold force_step. rewrite D, EF, EZ. unfold project_back. rewrite F.
    assert (move_points (g_delta_t P) [[0;0]] [[0;0]] = [[0;0]]) as -> by (unfold move_points, map2; cbn [combine map fst snd]; f_equal; f_equal; [ring|f_equal; ring]).
    cbn [map outside_band Nat.eqb]. rewrite (proj2 (Rltb_false 0 (-1))) by lra. reflexivity.
  - exfalso. unfold prepare in E. cbn [meshed_fd size_bbox the_h0 size_hmin full_bbox dom_bbox length Nat.div2 Nat.eqb orb negb start_points one_point o_points o_max_iter rbind dom_fd] in E.
    rewrite (proj2 (Rltb_false 1 0)) in E by lra. rewrite (proj2 (Rltb_false m 0)) in E by lra. discriminate.
Qed.
Print Assumptions C68_runs_forever.

(** ---- C69: what is returned ---- *)
Lemma centroid_centre dim p r : centroid dim (pts_of p r) = cell_centre dim p r.
Proof. unfold centroid, pts_of, cell_centre, coord, total. apply map_ext. intros j. rewrite map_map. reflexivity. Qed.

(** Rows of the returned mesh name existing vertices, no two are the same cell, and the centre of every cell is at signed
    distance below -h0/1000 of the domain meshed; rows have as many corners as the back end's cells. *)
Theorem C69_cells_inside : forall B d s o fuel p t k, good_backend B -> generate_mesh B d s o fuel = Some (Ok (p, t), k) ->
  exists fd h0 dim, meshed_fd d s = Some fd /\ the_h0 s o = Some h0 /\ (dim = 2 \/ dim = 3)%nat /\ dim = Nat.div2 (length (full_bbox d s)) /\
  (forall r v, In r t -> In v r -> (v < length p)%nat) /\
  (forall i j, (i < length t)%nat -> (j < length t)%nat -> i <> j -> ~ Permutation (nth i t []) (nth j t [])) /\
  (forall r, In r t -> fd (cell_centre dim p r) < - (h0 * (1 / 1000))) /\
  ((forall i q r, In r (snd (b_tri B i q)) -> length r = S dim) -> forall r, In r t -> length r = S dim).
Proof.
  intros B d s o fuel p t k HB H. unfold generate_mesh in H. destruct (prepare B d s o) as [[P p0]|e] eqn:E; [|discriminate].
  destruct (generate_prep _ _ _ _ _ _ E) as (_ & _ & F & H0 & D & DD & _). exists (g_fd P), (g_h0 P), (g_dim P). repeat (split; [assumption|]).
  assert (exists p1 t1, finish B P p1 t1 = Ok (p, t) /\ ((forall i q r, In r (snd (b_tri B i q)) -> length r = S (g_dim P)) -> wide (S (g_dim P)) t1)) as (p1 & t1 & FI & W).
  { clear E F H0 D DD. revert H. generalize 0%nat as count. revert p0. induction fuel as [|fuel IH]; intros p0 count H; [discriminate|]. cbn [mesh_loop] in H.
    destruct (b_tri B count p0) as [q u] eqn:ET. destruct q as [|x q]; [discriminate|]. destruct (Reqb _ _).
    - injection H as H1 H2. do 2 eexists. split; [exact H1|]. intros HW r I. apply filter_In in I. apply (HW count p0). rewrite ET. apply I.
    - match type of H with (if ?b then _ else _) = _ => destruct b end; [|discriminate]. eapply IH, H. }
  destruct (finish_spec B HB P p1 t1 p t FI) as (A1 & A2 & A3 & A4). split; [exact A1|]. split; [exact A2|]. split.
  - intros r I. rewrite <- centroid_centre. apply A3, I.
  - intros HW. exact (A4 _ (W HW)).
Qed.
Print Assumptions C69_cells_inside.
(** five points and two tetrahedra; the second one is removed by the last filter *)
Definition five : list (list R) := [[0;0;0];[1;0;0];[0;1;0];[0;0;1];[1;1;1]].
Definition two_tets : list row := [[0;1;2;3];[1;2;3;4]]%nat.
Definition five_backend : backend :=
  mkBackend (fun _ _ => (five, two_tets)) (nodup key_dec) (nodup row_dec) (fun _ x => map up x) ve_pairs (fun p _ => p) (fun n => repeat 0 n).
Definition deep_then_shallow (x : list R) : R :=
  let s := nth 0 x 0 + nth 1 x 0 + nth 2 x 0 in if Req_EM_T s (3 / 4) then -1 else if Req_EM_T s (3 / 2) then - (1 / 2000) else 0.
Lemma up_IZR z : up (IZR z) = (z + 1)%Z.
Proof. symmetry. apply tech_up; rewrite plus_IZR; lra. Qed.
Lemma up_0 : up 0 = 1%Z. Proof. exact (up_IZR 0). Qed.
Lemma up_1 : up 1 = 2%Z. Proof. exact (up_IZR 1). Qed.

Lemma five_fix : run_fix five_backend five two_tets = Ok (five, map (orient five) two_tets).
Proof.
  unfold run_fix, fix_mesh.
  cbn [b_uniqK b_uniqR b_key five_backend five map find_pos]. rewrite !up_0, !up_1. fold five.
  match goal with |- context [nodup key_dec ?l] => let v := eval vm_compute in (nodup key_dec l) in change (nodup key_dec l) with v end.
  vm_compute. reflexivity.
Qed.
Definition five_opts : gen_opts := mkOpts 1 false [] (Some five) (3 / 10) 0 None true false None.
Lemma five_centres : centroid 3 (pts_of five [0;1;2;3]%nat) = [1/4;1/4;1/4] /\ centroid 3 (pts_of five [1;2;3;4]%nat) = [1/2;1/2;1/2].
Proof.
  unfold centroid, pts_of. cbn [seq map five nth]. unfold Laplace.rtotal. cbn [fold_right]. cbn [INR].
  split; repeat (f_equal; try lra).
Qed.
Lemma deep_deep : deep_then_shallow [1/4;1/4;1/4] = -1 /\ deep_then_shallow [1/2;1/2;1/2] = - (1 / 2000).
Proof.
  unfold deep_then_shallow. cbn [nth]. split.
  - destruct (Req_EM_T _ _); [reflexivity|lra].
  - destruct (Req_EM_T _ _); [lra|]. destruct (Req_EM_T _ _); [reflexivity|lra].
Qed.
Lemma deep_five v : (v < 5)%nat -> deep_then_shallow (nth v five []) = 0.
Proof.
  intros H. unfold deep_then_shallow. do 5 (destruct v as [|v]; [cbn [five nth]; repeat destruct (Req_EM_T _ _); lra|]). lia.
Qed.
Lemma C69_unused_vertices_run : exists p t, good_backend five_backend /\
  generate_mesh five_backend (DFunction deep_then_shallow [0; 1; 0; 1; 0; 1]) (SScalar 1) five_opts 1 = Some (Ok (p, t), 1%nat) /\
  (exists r, In r t) /\ exists v, (v < length p)%nat /\ forall r, In r t -> ~ In v r.
Proof.
  exists five, [orient five [0;1;2;3]%nat]. split; [split; apply nodup_uniq_ok|]. split.
  - unfold generate_mesh, prepare. cbn [meshed_fd size_bbox dom_fd full_bbox dom_bbox length Nat.div2 Nat.eqb orb negb the_h0 size_hmin start_points five_opts o_points o_max_iter rbind].
    rewrite (proj2 (Rltb_false 1 0)) by lra. cbn [orb negb].
    set (P := mkProblem _ _ _ _ _ _ _ _ _ _ _ _). assert (g_dim P = 3%nat /\ g_fd P = deep_then_shallow /\ g_h0 P = 1 /\ g_geps P = 0 * 1 /\ g_max_iter P = 1 /\ g_checks P = false) as (D & F & H0 & G & M & CH) by (repeat split).
    clearbody P. unfold five. fold five. cbn [mesh_loop five_backend b_tri]. fold five_backend. unfold five at 1. cbv iota. fold five.
    rewrite M. rewrite (proj2 (Reqb_true _ _)) by (cbn [INR]; lra). unfold finish, termination.
    assert (forall r, centroid 3 (pts_of five (orient five r)) = centroid 3 (pts_of five r)) as OC.
    { intros r. unfold centroid, pts_of. apply map_ext. intros j. f_equal. rewrite !map_map. unfold orient. destruct (Rltb _ _); [|reflexivity].
      destruct r as [|a [|b r]]; try reflexivity. cbn [swap2 map]. unfold Laplace.rtotal. cbn [fold_right]. ring. }
    destruct five_centres as [C1 C2]. destruct deep_deep as [D1 D2].
    assert (remove_outside (g_dim P) (g_fd P) (g_geps P) five two_tets = two_tets) as ->.
    { rewrite D, F, G. unfold remove_outside, two_tets. cbn [filter]. rewrite C1, C2, D1, D2, !(proj2 (Rltb_true _ _)) by lra. reflexivity. }
    rewrite D, CH. cbn [Nat.eqb rbind fst snd]. rewrite five_fix. cbn [rbind fst snd].
    assert (improve_level_set (b_uniqR five_backend) (g_fd P) (g_deps P) 3 five (map (orient five) two_tets) = Ok five) as EI.
    { unfold improve_level_set. destruct (get_boundary_vertices _ _ _) as [|b bid] eqn:E; [exfalso|].
      - revert E. unfold two_tets. cbn [map b_uniqR five_backend]. unfold orient. do 2 (destruct (Rltb _ _); cbn [swap2]); vm_compute; discriminate.
      - f_equal. destruct (improve_loop_spec (g_fd P) (g_deps P) (b :: bid) (seq 0 5) 1 five) as (L & I1 & I2 & _). apply (nth_ext _ _ [] []); [exact L|].
        rewrite L. intros v H. destruct (in_dec Nat.eq_dec v (b :: bid)) as [I|I]; [|apply I1; assumption]. apply I2; [exact H|exact I|]. rewrite F. apply deep_five, H. }
    rewrite EI. cbn [rbind]. rewrite F, H0. unfold remove_outside, two_tets. cbn [map filter]. rewrite !OC, C1, C2, D1, D2.
    rewrite (proj2 (Rltb_true _ _)), (proj2 (Rltb_false _ _)) by lra. reflexivity.
  - split; [eexists; left; reflexivity|]. exists 4%nat. split; [cbn; lia|]. intros r [<- | []]. unfold orient. destruct (Rltb _ _); cbn; lia.
Qed.
(** The vertex array may contain vertices of no cell: the last filter removes cells only. *)
Theorem C69_unused_vertices : exists B fd o p t, good_backend B /\
  generate_mesh B (DFunction fd [0; 1; 0; 1; 0; 1]) (SScalar 1) o 1 = Some (Ok (p, t), 1%nat) /\
  (exists r, In r t) /\ exists v, (v < length p)%nat /\ forall r, In r t -> ~ In v r.
Proof. exists five_backend, deep_then_shallow, five_opts. exact C69_unused_vertices_run. Qed.
Print Assumptions C69_unused_vertices.
(** the hypotheses of C69_cells_inside are met by that run *)
Example C69_case : exists p t, good_backend five_backend /\ t <> [] /\
  generate_mesh five_backend (DFunction deep_then_shallow [0; 1; 0; 1; 0; 1]) (SScalar 1) five_opts 1 = Some (Ok (p, t), 1%nat).
Proof.
  destruct C69_unused_vertices_run as (p & t & G & H & (r & I) & _). exists p, t. split; [exact G|]. split; [|exact H]. intros ->. destruct I.
Qed.
Example C68_case : exists p t, generate_mesh five_backend (DFunction deep_then_shallow [0; 1; 0; 1; 0; 1]) (SScalar 1) five_opts 7 = Some (Ok (p, t), 1%nat).
Proof.
  destruct C69_case as (p & t & _ & _ & H). exists p, t.
  destruct (C68_budget five_backend (DFunction deep_then_shallow [0; 1; 0; 1; 0; 1]) (SScalar 1) five_opts 1 eq_refl ltac:(lia)) as (r & k & _ & _ & E).
  rewrite E by lia. rewrite <- H, E by lia. reflexivity.
Qed.

(** ---- C72: which domain is meshed ---- *)
Lemma minmax_box_smallest n : forall b0 b1, length b0 = (2 * n)%nat -> length b1 = (2 * n)%nat ->
  let m := minmax_box false b0 b1 in
  length m = (2 * n)%nat /\ box_incl b0 m /\ box_incl b1 m /\ forall c, box_incl b0 c -> box_incl b1 c -> box_incl m c.
Proof.
  induction n as [|n IH]; intros b0 b1 H0 H1.
  - destruct b0; [|discriminate]. destruct b1; [|discriminate]. cbn. repeat split; try constructor. auto.
  - destruct b0 as [|a [|b t]]; cbn in H0; try discriminate; [rewrite Nat.add_succ_r in H0; discriminate|].
    destruct b1 as [|a' [|b' t']]; cbn in H1; try discriminate; [rewrite Nat.add_succ_r in H1; discriminate|].
    rewrite Nat.add_succ_r in H0, H1. injection H0 as H0. injection H1 as H1.
    destruct (IH t t' H0 H1) as (L & I0 & I1 & I2). cbn [minmax_box negb]. split; [cbn [length]; lia|]. split; [|split].
    + constructor; [apply Rmin_l|apply Rmax_l|exact I0].
    + constructor; [apply Rmin_r|apply Rmax_r|exact I1].
    + intros c Hc Hc'. inversion Hc; subst. inversion Hc'; subst.
      constructor; [apply Rmin_glb; assumption|apply Rmax_lub; assumption|]. apply I2; assumption.
Qed.
Lemma box_fd_interior b fd x : box_fd b = Some fd -> length x = Nat.div2 (length b) -> fd x < 0 -> in_interior b x.
Proof.
  intros E L H. destruct b as [|x1 [|x2 [|y1 [|y2 [|z1 [|z2 [|? ?]]]]]]]; try discriminate; cbn in L.
  - assert (fd = d_eval (Rectangle x1 x2 y1 y2 no_manip)) as -> by (unfold box_fd in E; congruence).
    destruct x as [|u [|v [|? ?]]]; try discriminate. unfold Rectangle in H. rewrite no_manip_eval, rect_bd in H. apply bd_interior; [repeat constructor|exact H].
  - assert (fd = d_eval (Cube x1 x2 y1 y2 z1 z2 no_manip)) as -> by (unfold box_fd in E; congruence).
    destruct x as [|u [|v [|q [|? ?]]]]; try discriminate. unfold Cube in H. rewrite no_manip_eval, block_bd in H. apply bd_interior; [repeat constructor|exact H].
Qed.

(** A size function with a box different from the domain's: the shape plays no part, only its box and its corners do. *)
Theorem C72_shape_ignored : forall B d d' bs hmin fh o fuel, bs <> dom_bbox d -> dom_bbox d' = dom_bbox d -> dom_corners d' = dom_corners d ->
  generate_mesh B d (SObject bs hmin fh) o fuel = generate_mesh B d' (SObject bs hmin fh) o fuel.
Proof.
  intros B d d' bs hmin fh o fuel N EB EC. unfold generate_mesh, prepare, fixed_points, used_corners, meshed_fd, full_bbox. cbn [size_bbox].
  rewrite EB, EC. unfold box_eqb. destruct (list_eq_dec _ _ _) as [Q|_]; [congruence|]. reflexivity.
Qed.
Print Assumptions C72_shape_ignored.
(** The cells returned then have their centres inside the smallest box containing both boxes. *)
Theorem C72_enclosing_box : forall B d bs hmin fh o fuel p t k n, good_backend B -> bs <> dom_bbox d -> 0 <= hmin ->
  length (dom_bbox d) = (2 * n)%nat -> length bs = (2 * n)%nat ->
  generate_mesh B d (SObject bs hmin fh) o fuel = Some (Ok (p, t), k) ->
  exists bb, box_incl (dom_bbox d) bb /\ box_incl bs bb /\ (forall c, box_incl (dom_bbox d) c -> box_incl bs c -> box_incl bb c) /\
    (n = 2 \/ n = 3)%nat /\ forall r, In r t -> in_interior bb (cell_centre n p r).
Proof.
  intros B d bs hmin fh o fuel p t k n HB N HM L0 L1 H. destruct (minmax_box_smallest n _ _ L0 L1) as (L & M0 & M1 & M2).
  exists (minmax_box false (dom_bbox d) bs). repeat (split; [assumption|]).
  destruct (C69_cells_inside _ _ _ _ _ _ _ _ HB H) as (fd & h0 & dim & F & H0 & D & DD & _ & _ & IN & _).
  unfold full_bbox in DD. cbn [size_bbox] in DD. rewrite L in DD. assert (dim = n) as -> by (rewrite DD; apply Nat.div2_double).
  split; [exact D|]. intros r I. unfold meshed_fd in F. cbn [size_bbox] in F. unfold box_eqb in F. destruct (list_eq_dec _ _ _) as [Q|_]; [congruence|].
  apply (box_fd_interior _ fd); [exact F| |].
  - unfold cell_centre. rewrite map_length, seq_length, L. symmetry. apply Nat.div2_double.
  - cbn in H0. injection H0 as <-. specialize (IN r I). lra.
Qed.
Print Assumptions C72_enclosing_box.
(** With equal boxes, a constant size or a plain function the user's own signed distance decides. *)
Theorem C72_own_domain : forall B d s o fuel p t k, good_backend B -> (size_bbox s = None \/ size_bbox s = Some (dom_bbox d)) ->
  generate_mesh B d s o fuel = Some (Ok (p, t), k) ->
  exists h0, the_h0 s o = Some h0 /\ forall r, In r t -> dom_fd d (cell_centre (Nat.div2 (length (full_bbox d s))) p r) < - (h0 * (1 / 1000)).
Proof.
  intros B d s o fuel p t k HB E H. destruct (C69_cells_inside _ _ _ _ _ _ _ _ HB H) as (fd & h0 & dim & F & H0 & D & DD & _ & _ & IN & _).
  exists h0. split; [exact H0|]. assert (fd = dom_fd d) as ->; [|rewrite <- DD; exact IN].
  unfold meshed_fd in F. destruct E as [E|E]; rewrite E in F; [congruence|]. unfold box_eqb in F. destruct (list_eq_dec _ _ _); congruence.
Qed.
Print Assumptions C72_own_domain.
(** Boxes of other dimensions are refused. *)
Theorem C72_other_dimensions : forall B d s o fuel, (Nat.div2 (length (full_bbox d s)) <> 2 /\ Nat.div2 (length (full_bbox d s)) <> 3)%nat ->
  exists e, generate_mesh B d s o fuel = Some (Err e, 0%nat).
Proof.
  intros B d s o fuel [N2 N3]. unfold generate_mesh. destruct (prepare B d s o) as [[P p]|e] eqn:E; [|eauto].
  apply generate_prep in E. destruct E as (_ & _ & _ & _ & D & DD & _). rewrite <- DD in N2, N3. tauto.
Qed.
Print Assumptions C72_other_dimensions.
(** An everywhere positive signed distance (an empty domain) gives the same mesh as the box itself when the size function's box differs. *)
Example C72_case : forall B o fuel fh, generate_mesh B (DFunction (fun _ => 1) [0; 1; 0; 1]) (SObject [0; 2; 0; 1] (1 / 10) fh) o fuel =
  generate_mesh B (DFunction (d_eval (Rectangle 0 1 0 1 no_manip)) [0; 1; 0; 1]) (SObject [0; 2; 0; 1] (1 / 10) fh) o fuel.
Proof. intros. apply C72_shape_ignored; [|reflexivity|reflexivity]. cbn [dom_bbox]. intros Q. injection Q as Q. lra. Qed.
