(** C102: which corner points generate_mesh (one process) treats as fixed points.  [prepare] is everything before the loop; g_pfix is
    the list of fixed points, g_fd the signed distance actually meshed. *)
From Coq Require Import Reals List Arith Bool Lra Lia ZArith.
From Verif Require Import Model.Base Model.SDF Model.Mesh Model.InitGrid Model.Generator Spec.Geom Spec.Boxes.
From Verif Require Import Proofs.ListAux Proofs.MeshAux Proofs.SDFPrim Proofs.SDFBox Proofs.SDFSets Proofs.SDFMore Proofs.TriangProofs Proofs.GenLoop Props.P05_sdf Props.P18_generate.
Import ListNotations.
Local Open Scope R_scope.

(** ---- specification ---- *)
(** the corner points of an operand *)
Definition corner_of (q : domain) (c : pt) : Prop := exists cs, d_corners q = Some cs /\ In c cs.
(** corners are used in 2D, and in 3D with a scalar size *)
Definition uses_corners (s : size_arg) (dim : nat) : Prop := dim = 2%nat \/ dim = 3%nat /\ exists h, s = SScalar h.
(** the box of the size function, if there is one, is the box of the domain *)
Definition unpadded (d : dom_arg) (s : size_arg) : Prop := size_bbox s = None \/ size_bbox s = Some (dom_bbox d).
(** depth below which a corner counts as inside: 1000 * sqrt(2^-52) * h0 *)
Definition depth (h0 : R) : R := 1000 * (/ 2 ^ 26 * h0).

Lemma prepare_pfix B d s o P p : prepare B d s o = Ok (P, p) ->
  g_pfix P = o_pfix o ++ kept_corners (g_fd P) (deps_of (g_h0 P)) (used_corners d s (g_dim P)) /\ meshed_fd d s = Some (g_fd P) /\ the_h0 s o = Some (g_h0 P) /\ 0 <= g_h0 P /\
  (g_dim P = 2%nat \/ g_dim P = 3%nat).
Proof.
  unfold prepare. destruct (meshed_fd d s) as [fd|]; [|discriminate]. destruct (the_h0 s o) as [h0|]; [|discriminate].
  destruct (Rltb h0 0) eqn:E0; [discriminate|]. apply Rltb_false in E0. destruct (negb _) eqn:E; [discriminate|]. apply negb_false_iff, orb_true_iff in E. rewrite !Nat.eqb_eq in E.
  intros H. destruct (start_points _ _ _ _ _ _ _ _ _) as [q|] eqn:ES; [|discriminate]. cbn [rbind] in H. destruct (Rltb (o_max_iter o) 0); [discriminate|].
  destruct q as [|x q]; [discriminate|]. injection H as <- <-. cbn [g_pfix g_fd g_deps g_h0 g_dim]. split; [reflexivity|]. split; [reflexivity|]. split; [reflexivity|]. split; [exact E0|exact E].
Qed.
Lemma unpadded_fd d s : unpadded d s -> meshed_fd d s = Some (dom_fd d).
Proof.
  unfold unpadded, meshed_fd. intros [-> | ->]; [reflexivity|]. unfold box_eqb. destruct (list_eq_dec Req_EM_T _ _) as [_|N]; [reflexivity|exfalso; apply N; reflexivity].
Qed.
Lemma used_all s dim q : uses_corners s dim -> used_corners (DObject q) s dim = match d_corners q with Some c => c | None => [] end.
Proof.
  unfold used_corners. cbn [dom_corners]. intros [-> | [-> [h ->]]]; destruct (d_corners q); try reflexivity. destruct s; reflexivity.
Qed.
Lemma kept_in fd h0 cs c : In c (kept_corners fd (deps_of h0) cs) <-> In c cs /\ - depth h0 < fd c.
Proof.
  unfold kept_corners. rewrite filter_In. unfold Rgtb, deps_of, depth. rewrite Rltb_true. split; intros [A C]; (split; [exact A|lra]).
Qed.

(** The corners of a set operation are those of its operands. *)
Lemma gather_spec ds c : (exists cs, gather_corners ds = Some cs /\ In c cs) <-> exists q, In q ds /\ corner_of q c.
Proof.
  unfold gather_corners. set (l := flat_map _ ds).
  assert (forall c, In c (concat l) <-> exists q, In q ds /\ corner_of q c) as K.
  { intros x. rewrite in_concat. unfold l. split.
    - intros (cs & I & J). apply in_flat_map in I. destruct I as (q & Iq & I). exists q. split; [exact Iq|]. destruct (d_corners q) as [cs'|] eqn:E; [|destruct I]. destruct I as [<- | []]. exists cs'. split; [exact E|exact J].
    - intros (q & Iq & cs & E & J). exists cs. split; [|exact J]. apply in_flat_map. exists q. split; [exact Iq|]. rewrite E. left. reflexivity. }
  destruct l as [|cs l'] eqn:EL.
  - split; [intros (cs & E & _); discriminate|]. intros H. apply K in H. destruct H.
  - rewrite <- K. split; [intros (cs' & E & I); injection E as <-; exact I|]. intros I. eexists. split; [reflexivity|exact I].
Qed.
Lemma set_init_corners eval ds d : set_init eval ds = Ok d -> d_corners d = gather_corners ds.
Proof.
  unfold set_init. destruct ds as [|q ds]; [discriminate|]. destruct (dims_guard _); [|discriminate]. destruct (set_bbox _ _ _); [|discriminate]. cbn [rbind]. intros H. injection H as <-. reflexivity.
Qed.
Theorem C102_gathered : forall k ds d c, Union k ds = Ok d \/ Intersection k ds = Ok d \/ Difference k ds = Ok d ->
  (corner_of d c <-> exists q, In q ds /\ corner_of q c).
Proof.
  intros k ds d c H. unfold corner_of at 1. rewrite <- gather_spec. destruct H as [H|[H|H]]; rewrite (set_init_corners _ _ _ H); reflexivity.
Qed.
Print Assumptions C102_gathered.
(** A corner is fixed unless it lies inside, deeper than 1000*sqrt(eps)*h0; there is no bound on how far outside it may lie. *)
Theorem C102_fixed : forall B q s o P p c, prepare B (DObject q) s o = Ok (P, p) -> uses_corners s (g_dim P) ->
  (In c (g_pfix P) <-> In c (o_pfix o) \/ corner_of q c /\ - depth (g_h0 P) < g_fd P c) /\ (unpadded (DObject q) s -> g_fd P = d_eval q).
Proof.
  intros B q s o P p c H U. destruct (prepare_pfix _ _ _ _ _ _ H) as (-> & MF & _ & _ & _). rewrite used_all by exact U. split.
  - rewrite in_app_iff, kept_in. apply or_iff_compat_l, and_iff_compat_r. unfold corner_of. destruct (d_corners q) as [cs|].
    + split; [intros I; exists cs; split; [reflexivity|exact I]|intros (cs' & E & I); injection E as ->; exact I].
    + split; [intros []|intros (cs' & E & _); discriminate].
  - intros UP. rewrite (unpadded_fd _ _ UP) in MF. injection MF as <-. reflexivity.
Qed.
Print Assumptions C102_fixed.
(** 3D with a size that is not a scalar: no corner is fixed. *)
Theorem C102_none_in_3d : forall B q s o P p, prepare B (DObject q) s o = Ok (P, p) -> g_dim P = 3%nat -> (forall h, s <> SScalar h) -> g_pfix P = o_pfix o.
Proof.
  intros B q s o P p H D N. destruct (prepare_pfix _ _ _ _ _ _ H) as (-> & _). rewrite D. unfold used_corners. destruct (dom_corners (DObject q)); [destruct s; try (exfalso; eapply N; reflexivity)|]; cbn; apply app_nil_r.
Qed.
Print Assumptions C102_none_in_3d.

(** ---- primitives ---- *)
Lemma rect_corner_zero x1 x2 y1 y2 c : x1 <= x2 -> y1 <= y2 -> In c (corners [x1; x2; y1; y2]) -> c_drectangle (fun t => t) x1 x2 y1 y2 c = 0.
Proof.
  intros X Y I. cbn in I. destruct I as [<- | [<- | [<- | [<- | []]]]]; rewrite rect_bd; cbn [bd]; unfold Rmax; repeat destruct (Rle_dec _ _); lra.
Qed.
Lemma cube_corner_zero x1 x2 y1 y2 z1 z2 c : x1 <= x2 -> y1 <= y2 -> z1 <= z2 -> In c (corners [x1; x2; y1; y2; z1; z2]) -> c_dblock (fun t => t) x1 x2 y1 y2 z1 z2 c = 0.
Proof.
  intros X Y Z I. cbn in I. destruct I as [<- | [<- | [<- | [<- | [<- | [<- | [<- | [<- | []]]]]]]]]; rewrite block_bd; cbn [bd]; unfold Rmax; repeat destruct (Rle_dec _ _); lra.
Qed.
(** A Rectangle's and a Cube's own corners are at distance 0 (no transformation). *)
Theorem C102_own_corners :
  (forall x1 x2 y1 y2 c, corner_of (Rectangle x1 x2 y1 y2 no_manip) c <-> In c (corners [x1; x2; y1; y2])) /\
  (forall x1 x2 y1 y2 z1 z2 c, corner_of (Cube x1 x2 y1 y2 z1 z2 no_manip) c <-> In c (corners [x1; x2; y1; y2; z1; z2])) /\
  (forall x1 x2 y1 y2 c, x1 <= x2 -> y1 <= y2 -> corner_of (Rectangle x1 x2 y1 y2 no_manip) c -> d_eval (Rectangle x1 x2 y1 y2 no_manip) c = 0) /\
  (forall x1 x2 y1 y2 z1 z2 c, x1 <= x2 -> y1 <= y2 -> z1 <= z2 -> corner_of (Cube x1 x2 y1 y2 z1 z2 no_manip) c -> d_eval (Cube x1 x2 y1 y2 z1 z2 no_manip) c = 0).
Proof.
  assert (forall x1 x2 y1 y2 c, corner_of (Rectangle x1 x2 y1 y2 no_manip) c <-> In c (corners [x1; x2; y1; y2])) as KR.
  { intros. unfold corner_of. rewrite rect_corners_fresh by reflexivity. unfold Rectangle at 1. rewrite no_manip_bbox. split; [intros (cs & E & I); injection E as <-; exact I|eauto]. }
  assert (forall x1 x2 y1 y2 z1 z2 c, corner_of (Cube x1 x2 y1 y2 z1 z2 no_manip) c <-> In c (corners [x1; x2; y1; y2; z1; z2])) as KC.
  { intros. unfold corner_of. rewrite cube_corners_fresh by reflexivity. unfold Cube at 1. rewrite no_manip_bbox. split; [intros (cs & E & I); injection E as <-; exact I|eauto]. }
  split; [exact KR|]. split; [exact KC|]. split.
  - intros x1 x2 y1 y2 c X Y I. apply KR in I. unfold Rectangle. rewrite no_manip_eval. apply rect_corner_zero; assumption.
  - intros x1 x2 y1 y2 z1 z2 c X Y Z I. apply KC in I. unfold Cube. rewrite no_manip_eval. apply cube_corner_zero; assumption.
Qed.
Print Assumptions C102_own_corners.

(** ---- set operations ---- *)
(** Union: a corner of an operand is fixed unless it lies deeper than that inside some operand. *)
Theorem C102_union : forall B ds q s o P p c, Union 0 ds = Ok q -> prepare B (DObject q) s o = Ok (P, p) -> uses_corners s (g_dim P) -> unpadded (DObject q) s ->
  (In c (g_pfix P) <-> In c (o_pfix o) \/ (exists r, In r ds /\ corner_of r c) /\ forall r, In r ds -> - depth (g_h0 P) < d_eval r c).
Proof.
  intros B ds q s o P p c HU H U UP. destruct (C102_fixed _ _ _ _ _ _ c H U) as [-> F]. rewrite (F UP). apply or_iff_compat_l.
  rewrite (C102_gathered 0 ds q c (or_introl HU)). apply and_iff_compat_l.
  pose proof (union_le 0 ds q c (- depth (g_h0 P)) HU eq_refl) as K. rewrite Exists_exists in K. split.
  - intros L r I. apply Rnot_le_lt. intros Q. assert (d_eval q c <= - depth (g_h0 P)) by (apply K; eauto). lra.
  - intros A. apply Rnot_le_lt. intros Q. apply K in Q. destruct Q as (r & I & Q). specialize (A r I). lra.
Qed.
Print Assumptions C102_union.
(** Intersection and Difference: no corner of an operand is ever dropped, wherever it lies with respect to the other operands. *)
Theorem C102_intersection_keeps_all : forall B ds q s o P p r c, Intersection 0 ds = Ok q -> prepare B (DObject q) s o = Ok (P, p) -> uses_corners s (g_dim P) ->
  unpadded (DObject q) s -> 0 < g_h0 P -> In r ds -> corner_of r c -> 0 <= d_eval r c -> In c (g_pfix P).
Proof.
  intros B ds q s o P p r c HI H U UP H0 I C D. destruct (C102_fixed _ _ _ _ _ _ c H U) as [-> F]. rewrite (F UP). right. split; [apply (C102_gathered 0 ds q c (or_intror (or_introl HI))); eauto|].
  apply Rnot_le_lt. intros Q. assert (0 < depth (g_h0 P)) by (unfold depth; assert (0 < / 2 ^ 26) by (apply Rinv_0_lt_compat, pow_lt; lra); repeat apply Rmult_lt_0_compat; lra).
  assert (d_eval q c < 0) as Q' by lra. apply (inter_lt 0 ds q c 0 HI eq_refl) in Q'. rewrite Forall_forall in Q'. specialize (Q' r I). lra.
Qed.
Print Assumptions C102_intersection_keeps_all.
Theorem C102_difference_keeps_all : forall B d0 ds q s o P p r c, Difference 0 (d0 :: ds) = Ok q -> prepare B (DObject q) s o = Ok (P, p) -> uses_corners s (g_dim P) ->
  unpadded (DObject q) s -> 0 < g_h0 P -> In r (d0 :: ds) -> corner_of r c -> d_eval r c = 0 -> In c (g_pfix P).
Proof.
  intros B d0 ds q s o P p r c HI H U UP H0 I C D. destruct (C102_fixed _ _ _ _ _ _ c H U) as [-> F]. rewrite (F UP). right. split; [apply (C102_gathered 0 _ q c (or_intror (or_intror HI))); eauto|].
  apply Rnot_le_lt. intros Q. assert (0 < depth (g_h0 P)) by (unfold depth; assert (0 < / 2 ^ 26) by (apply Rinv_0_lt_compat, pow_lt; lra); repeat apply Rmult_lt_0_compat; lra).
  assert (d_eval q c < 0) as Q' by lra. apply (diff_lt 0 _ _ q c HI eq_refl) in Q'. destruct Q' as [Q1 Q2]. rewrite Forall_forall in Q2.
  destruct I as [<- | I]; [lra|]. specialize (Q2 r I). lra.
Qed.
Print Assumptions C102_difference_keeps_all.

(** ---- rotation ---- *)
Lemma list4 (a b c d a' b' c' d' : R) : a = a' -> b = b' -> c = c' -> d = d' -> [a; b; c; d] = [a'; b'; c'; d'].
Proof. intros -> -> -> ->. reflexivity. Qed.
Lemma sincos a : 0 < a < PI / 2 -> 0 < cos a /\ 0 < sin a /\ cos a * cos a + sin a * sin a = 1.
Proof.
  intros A. split; [apply cos_gt_0; pose proof PI_RGT_0; lra|]. split; [apply sin_gt_0; pose proof PI_RGT_0; lra|]. pose proof (sin2_cos2 a) as E. unfold Rsqr in E. lra.
Qed.
(** A Rectangle rotated by an angle strictly between 0 and 90 degrees offers the corners of its bounding box; all lie outside it, at
    least sin*cos*(shorter side) away, and all are fixed. *)
Theorem C102_rotated : forall B x1 x2 y1 y2 a s o P p, x1 < x2 -> y1 < y2 -> 0 < a < PI / 2 ->
  let q := Rectangle x1 x2 y1 y2 (manip2 None a None) in
  prepare B (DObject q) s o = Ok (P, p) -> uses_corners s (g_dim P) -> unpadded (DObject q) s ->
  length (filter (fun c => if Rlt_dec 0 (d_eval q c) then true else false) (match d_corners q with Some cs => cs | None => [] end)) = 4%nat /\
  forall c, corner_of q c -> sin a * cos a * Rmin (x2 - x1) (y2 - y1) <= d_eval q c /\ In c (g_pfix P).
Proof.
  intros B x1 x2 y1 y2 a s o P p X Y A q H U UP. destruct (sincos a A) as (C & S & CS).
  assert (a <> 0) as NA by lra.
  set (X1 := cos a * x1 - sin a * y2). set (X2 := cos a * x2 - sin a * y1). set (Y1 := sin a * x1 + cos a * y1). set (Y2 := sin a * x2 + cos a * y2).
  assert (0 < cos a * (x2 - x1)) as PX by (apply Rmult_lt_0_compat; lra). assert (0 < sin a * (x2 - x1)) as PX' by (apply Rmult_lt_0_compat; lra).
  assert (0 < cos a * (y2 - y1)) as PY by (apply Rmult_lt_0_compat; lra). assert (0 < sin a * (y2 - y1)) as PY' by (apply Rmult_lt_0_compat; lra).
  assert (d_corners q = Some (corners [X1; X2; Y1; Y2])) as EC.
  { unfold q, Rectangle. cbn [make_prim d_corners]. unfold configure, build_translation, build_rotation, build_stretch. cbn [manip2 m_trans m_rot m_stretch Nat.eqb fst].
    rewrite (proj2 (Reqb_false a 0) NA). cbn [snd]. f_equal. f_equal. unfold image_bbox, mat_vec, rot2, dot, map2.
    cbn [corners map flat_map seq combine fold_right app fst snd nth concat].
    unfold X1, X2, Y1, Y2. apply list4; cbn [min_list max_list fold_right]; unfold Rmin, Rmax; repeat destruct (Rle_dec _ _); lra. }
  assert (forall x y, d_eval q [x; y] = bd [x1; x2; y1; y2] [cos a * x + sin a * y; - sin a * x + cos a * y]) as EV.
  { intros x y. unfold q, Rectangle. cbn [make_prim d_eval]. rewrite <- rect_bd. f_equal. unfold manipulate. cbn [manip2 m_rot m_trans m_stretch Nat.eqb].
    rewrite (proj2 (Reqb_false a 0) NA), !Reqb_refl. unfold mat_vec, transpose2, rot2, dot, map2. cbn [length seq map nth combine fold_right fst snd]. f_equal; [ring|]. f_equal. ring. }
  assert (forall c, In c (corners [X1; X2; Y1; Y2]) -> sin a * cos a * Rmin (x2 - x1) (y2 - y1) <= d_eval q c) as K.
  { assert (0 < sin a * cos a) as SC by (apply Rmult_lt_0_compat; assumption).
    assert (sin a * cos a * Rmin (x2 - x1) (y2 - y1) <= sin a * cos a * (x2 - x1)) as M1 by (apply Rmult_le_compat_l; [lra|apply Rmin_l]).
    assert (sin a * cos a * Rmin (x2 - x1) (y2 - y1) <= sin a * cos a * (y2 - y1)) as M2 by (apply Rmult_le_compat_l; [lra|apply Rmin_r]).
    assert (forall u v, x1 - u <= bd [x1; x2; y1; y2] [u; v] /\ u - x2 <= bd [x1; x2; y1; y2] [u; v] /\ y1 - v <= bd [x1; x2; y1; y2] [u; v] /\ v - y2 <= bd [x1; x2; y1; y2] [u; v]) as BD.
    { intros u v. cbn [bd]. unfold Rmax. repeat destruct (Rle_dec _ _); lra. }
    intros c I. cbn in I. destruct I as [<- | [<- | [<- | [<- | []]]]]; rewrite EV; match goal with |- _ <= bd _ [?u; ?v] => destruct (BD u v) as (B1 & B2 & B3 & B4) end.
    - assert (cos a * X1 + sin a * Y1 = (cos a * cos a + sin a * sin a) * x1 - sin a * cos a * (y2 - y1)) as E by (unfold X1, Y1; ring). rewrite CS in E. lra.
    - assert (- sin a * X1 + cos a * Y2 = (cos a * cos a + sin a * sin a) * y2 + sin a * cos a * (x2 - x1)) as E by (unfold X1, Y2; ring). rewrite CS in E. lra.
    - assert (- sin a * X2 + cos a * Y1 = (cos a * cos a + sin a * sin a) * y1 - sin a * cos a * (x2 - x1)) as E by (unfold X2, Y1; ring). rewrite CS in E. lra.
    - assert (cos a * X2 + sin a * Y2 = (cos a * cos a + sin a * sin a) * x2 + sin a * cos a * (y2 - y1)) as E by (unfold X2, Y2; ring). rewrite CS in E. lra. }
  assert (0 < sin a * cos a * Rmin (x2 - x1) (y2 - y1)) as POS by (repeat apply Rmult_lt_0_compat; try assumption; apply Rmin_glb_lt; lra).
  split.
  - rewrite EC. rewrite filter_all; [reflexivity|]. intros c I. destruct (Rlt_dec 0 (d_eval q c)) as [_|N]; [reflexivity|]. exfalso. apply N. specialize (K c I). lra.
  - intros c (cs & E & I). rewrite EC in E. injection E as <-. split; [apply K, I|]. destruct (C102_fixed _ _ _ _ _ _ c H U) as [-> F]. rewrite (F UP). right.
    split; [exists (corners [X1; X2; Y1; Y2]); split; [exact EC|exact I]|]. specialize (K c I). destruct (prepare_pfix _ _ _ _ _ _ H) as (_ & _ & _ & H0 & _).
    assert (0 <= depth (g_h0 P)); [|lra]. unfold depth. assert (0 < / 2 ^ 26) by (apply Rinv_0_lt_compat, pow_lt; lra). repeat apply Rmult_le_pos; lra.
Qed.
Print Assumptions C102_rotated.

(** ---- padding ---- *)
(** A Rectangle meshed with a size function whose box was extended by domain_pad = w (all sides but the top, x2): the two top corners
    of the unpadded box, now interior points of the top side, are fixed, and no corner of the rectangle actually meshed is. *)
Theorem C102_padded : forall B x1 x2 y1 y2 w hmin f o P p, x1 < x2 -> y1 < y2 -> 0 < hmin -> depth hmin < w -> depth hmin <= x2 - x1 ->
  let q := Rectangle x1 x2 y1 y2 no_manip in let b := [x1 - w; x2; y1 - w; y2 + w] in
  prepare B (DObject q) (SObject b hmin f) o = Ok (P, p) ->
  (forall c, g_fd P c = d_eval (Rectangle (x1 - w) x2 (y1 - w) (y2 + w) no_manip) c) /\
  g_pfix P = o_pfix o ++ [[x2; y1]; [x2; y2]] /\ (forall c, In c (corners b) -> ~ In c (o_pfix o) -> ~ In c (g_pfix P)).
Proof.
  intros B x1 x2 y1 y2 w hmin f o P p X Y H0 W HX q b H. destruct (prepare_pfix _ _ _ _ _ _ H) as (EP & MF & EH & _ & DM).
  cbn [the_h0 size_hmin] in EH. injection EH as EH. assert (0 < depth hmin) as DP by (unfold depth; assert (0 < / 2 ^ 26) by (apply Rinv_0_lt_compat, pow_lt; lra); repeat apply Rmult_lt_0_compat; lra).
  assert (dom_bbox (DObject q) = [x1; x2; y1; y2]) as EB by (cbn [dom_bbox]; unfold q, Rectangle; apply no_manip_bbox).
  assert (full_bbox (DObject q) (SObject b hmin f) = b) as FB.
  { unfold full_bbox. cbn [size_bbox]. rewrite EB. unfold b. cbn [minmax_box negb]. rewrite (Rmin_right x1), (Rmax_left x2 x2), (Rmin_right y1), (Rmax_right y2) by lra. reflexivity. }
  assert (g_fd P = d_eval (Rectangle (x1 - w) x2 (y1 - w) (y2 + w) no_manip)) as EF.
  { unfold meshed_fd in MF. cbn [size_bbox] in MF. rewrite EB, FB in MF. unfold box_eqb in MF. destruct (list_eq_dec Req_EM_T _ _) as [Q|_]; [exfalso; unfold b in Q; injection Q as Q _; lra|].
    unfold b in MF. cbn [box_fd] in MF. injection MF as <-. reflexivity. }
  assert (g_pfix P = o_pfix o ++ [[x2; y1]; [x2; y2]]) as EX.
  { assert (g_dim P = 2%nat) as D2. { unfold prepare in H. rewrite FB in H. destruct (meshed_fd _ _); [|discriminate]. destruct (the_h0 _ _); [|discriminate]. destruct (Rltb _ 0); [discriminate|]. destruct (negb _); [discriminate|]. destruct (start_points _ _ _ _ _ _ _ _ _) as [l|]; [|discriminate]. cbn [rbind] in H. destruct (Rltb _ 0); [discriminate|]. destruct l; [discriminate|]. injection H as <- _. reflexivity. }
    rewrite EP, used_all by (left; exact D2). f_equal. unfold q. rewrite rect_corners_fresh by reflexivity. unfold Rectangle at 1. rewrite no_manip_bbox, <- EH, EF.
    assert (forall u v, d_eval (Rectangle (x1 - w) x2 (y1 - w) (y2 + w) no_manip) [u; v] = bd [x1 - w; x2; y1 - w; y2 + w] [u; v]) as EV.
    { intros u v. unfold Rectangle. rewrite no_manip_eval. apply rect_bd. }
    unfold kept_corners. cbn [corners flat_map map app filter]. rewrite !EV. unfold Rgtb, deps_of in *. unfold depth in *.
    rewrite (proj2 (Rltb_false _ (bd _ [x1; y1]))), (proj2 (Rltb_false _ (bd _ [x1; y2]))), (proj2 (Rltb_true _ (bd _ [x2; y1]))), (proj2 (Rltb_true _ (bd _ [x2; y2]))); [reflexivity|..];
      cbn [bd]; unfold Rmax; repeat destruct (Rle_dec _ _); lra. }
  split; [intros c; rewrite EF; reflexivity|]. split; [exact EX|]. intros c I N. rewrite EX, in_app_iff. intros [J|J]; [tauto|]. unfold b in I. cbn in I.
  destruct J as [<- | [<- | []]]; destruct I as [Q|[Q|[Q|[Q|[]]]]]; injection Q; intros; lra.
Qed.
Print Assumptions C102_padded.

(** ---- a fixed point outside the domain ---- *)
Definition corner_opts : gen_opts := mkOpts 1 false [] (Some [[3/2; 3/2]]) (3 / 10) (1 / 10) None true false None.
(** The square [0,2]x[0,2] without the unit disk around its corner: the corner is a fixed point at signed distance +1. *)
Theorem C102_fixed_outside : exists d P p, Difference 0 [Rectangle 0 2 0 2 no_manip; Disk 0 0 1 no_manip] = Ok d /\
  prepare five_backend (DObject d) (SScalar 1) corner_opts = Ok (P, p) /\ o_pfix corner_opts = [] /\ In [0; 0] (g_pfix P) /\ d_eval d [0; 0] = 1.
Proof.
  assert (exists d, Difference 0 [Rectangle 0 2 0 2 no_manip; Disk 0 0 1 no_manip] = Ok d /\ length (d_bbox d) = 4%nat) as (d & ED & EL).
  { unfold Difference, set_init. cbn [dims_guard]. change (d_dim (Rectangle 0 2 0 2 no_manip)) with 2%nat. cbn [set_bbox Nat.mul Nat.add get_all fold_right].
    assert (d_bbox (Rectangle 0 2 0 2 no_manip) = [0; 2; 0; 2]) as -> by (unfold Rectangle; apply no_manip_bbox).
    assert (exists b1 b2 b3 b4, d_bbox (Disk 0 0 1 no_manip) = [b1; b2; b3; b4]) as (b1 & b2 & b3 & b4 & ->) by (unfold Disk; rewrite no_manip_bbox; eauto).
    cbn [nth_error obind rbind]. eexists. split; reflexivity. }
  assert (exists P p, prepare five_backend (DObject d) (SScalar 1) corner_opts = Ok (P, p) /\ g_dim P = 2%nat /\ g_h0 P = 1) as (P & p & EP & ED2 & EH).
  { unfold prepare, meshed_fd, full_bbox. cbn [size_bbox the_h0 size_hmin dom_bbox]. rewrite EL. rewrite (proj2 (Rltb_false 1 0)) by lra. cbn [Nat.div2 Nat.eqb orb negb start_points corner_opts o_points rbind o_max_iter].
    rewrite (proj2 (Rltb_false 1 0)) by lra. do 2 eexists. split; [reflexivity|]. split; reflexivity. }
  exists d, P, p. split; [exact ED|]. split; [exact EP|]. split; [reflexivity|]. split.
  - destruct C102_own_corners as (KR & _ & KZ & _). apply (C102_difference_keeps_all _ _ _ _ _ _ _ _ (Rectangle 0 2 0 2 no_manip) [0; 0] ED EP); [left; exact ED2|left; reflexivity|lra|left; reflexivity| |].
    + apply KR. left. reflexivity.
    + apply KZ; [lra|lra|]. apply KR. left. reflexivity.
  - destruct (set_init_eval _ _ _ ED) as [_ ->]. cbn [map]. unfold difference_vals. rewrite Reqb_refl. cbn [map reduce_ fold_left].
    unfold Rectangle, Disk. rewrite !no_manip_eval, rect_bd, ddisk_edist. cbn [bd]. replace (edist [0; 0] [0; 0]) with 0.
    + unfold Rmax. repeat destruct (Rle_dec _ _); lra.
    + unfold edist. replace (sqdist [0; 0] [0; 0]) with 0 by (cbn; ring). symmetry. apply sqrt_0.
Qed.
Print Assumptions C102_fixed_outside.
Lemma prepare_points B d s fd h0 : meshed_fd d s = Some fd -> the_h0 s corner_opts = Some h0 -> 0 <= h0 -> length (full_bbox d s) = 4%nat ->
  exists P p, prepare B d s corner_opts = Ok (P, p) /\ g_dim P = 2%nat /\ g_h0 P = h0.
Proof.
  intros EM EH H0 EL. unfold prepare. rewrite EM, EH, EL, (proj2 (Rltb_false h0 0)) by lra. cbn [Nat.div2 Nat.eqb orb negb start_points corner_opts o_points rbind o_max_iter].
  rewrite (proj2 (Rltb_false 1 0)) by lra. do 2 eexists. split; [reflexivity|]. split; reflexivity.
Qed.
Lemma depth1 : 0 < depth 1 < 1 / 10.
Proof. unfold depth. replace (2 ^ 26) with 67108864 by ring. lra. Qed.
(** two overlapping squares: the corner of one inside the other is dropped, the outer ones are fixed; a rotated and a padded square *)
Example C102_case :
  (exists d P p, Union 0 [Rectangle 0 2 0 2 no_manip; Rectangle 1 3 1 3 no_manip] = Ok d /\ prepare five_backend (DObject d) (SScalar 1) corner_opts = Ok (P, p) /\
     uses_corners (SScalar 1) (g_dim P) /\ unpadded (DObject d) (SScalar 1) /\ In [0; 0] (g_pfix P) /\ corner_of d [1; 1] /\ ~ In [1; 1] (g_pfix P)) /\
  (exists P p, prepare five_backend (DObject (Rectangle 0 1 0 1 (manip2 None (PI / 4) None))) (SScalar 1) corner_opts = Ok (P, p) /\ uses_corners (SScalar 1) (g_dim P) /\ 0 < PI / 4 < PI / 2) /\
  (exists P p, prepare five_backend (DObject (Rectangle 0 1 0 1 no_manip)) (SObject [0 - 1; 1; 0 - 1; 1 + 1] 1 (fun _ => 1)) corner_opts = Ok (P, p) /\ depth 1 < 1 /\ depth 1 <= 1 - 0).
Proof.
  pose proof depth1 as D1. split; [|split].
  - assert (forall x1 x2, d_bbox (Rectangle x1 x2 x1 x2 no_manip) = [x1; x2; x1; x2]) as EB by (intros; unfold Rectangle; apply no_manip_bbox).
    assert (exists d, Union 0 [Rectangle 0 2 0 2 no_manip; Rectangle 1 3 1 3 no_manip] = Ok d /\ length (d_bbox d) = 4%nat) as (d & ED & EL).
    { unfold Union, set_init. cbn [dims_guard]. change (d_dim (Rectangle 0 2 0 2 no_manip)) with 2%nat. cbn [set_bbox Nat.mul Nat.add get_all fold_right]. rewrite !EB. cbn [nth_error obind rbind]. eexists. split; reflexivity. }
    destruct (prepare_points five_backend (DObject d) (SScalar 1) (d_eval d) 1) as (P & p & EP & D2 & EH); [reflexivity..|lra|exact EL|].
    assert (uses_corners (SScalar 1) (g_dim P)) as U by (left; exact D2). assert (unpadded (DObject d) (SScalar 1)) as UP by (left; reflexivity).
    destruct C102_own_corners as (KR & _ & _).
    assert (forall x1 x2 u v, d_eval (Rectangle x1 x2 x1 x2 no_manip) [u; v] = bd [x1; x2; x1; x2] [u; v]) as EV by (intros; unfold Rectangle; rewrite no_manip_eval; apply rect_bd).
    exists d, P, p. split; [exact ED|]. split; [exact EP|]. split; [exact U|]. split; [exact UP|]. split; [|split].
    + apply (C102_union _ _ _ _ _ _ _ _ ED EP U UP). right. split.
      * exists (Rectangle 0 2 0 2 no_manip). split; [left; reflexivity|]. apply KR. left. reflexivity.
      * rewrite EH. intros r [<- | [<- | []]]; rewrite EV; cbn [bd]; unfold Rmax; repeat destruct (Rle_dec _ _); lra.
    + apply (C102_gathered 0 _ _ _ (or_introl ED)). exists (Rectangle 1 3 1 3 no_manip). split; [right; left; reflexivity|]. apply KR. left. reflexivity.
    + intros I. apply (C102_union _ _ _ _ _ _ _ _ ED EP U UP) in I. destruct I as [[]|[_ I]]. specialize (I (Rectangle 0 2 0 2 no_manip) (or_introl eq_refl)). rewrite EV, EH in I. revert I. cbn [bd]. unfold Rmax. repeat destruct (Rle_dec _ _); lra.
  - destruct (prepare_points five_backend (DObject (Rectangle 0 1 0 1 (manip2 None (PI / 4) None))) (SScalar 1) (d_eval (Rectangle 0 1 0 1 (manip2 None (PI / 4) None))) 1) as (P & p & EP & D2 & EH); [reflexivity..|lra| |].
    + unfold full_bbox. cbn [size_bbox dom_bbox]. unfold Rectangle. cbn [make_prim d_bbox]. unfold configure, build_translation, build_rotation, build_stretch. cbn [manip2 m_trans m_rot m_stretch Nat.eqb fst].
      destruct (Reqb (PI / 4) 0); reflexivity.
    + exists P, p. split; [exact EP|]. split; [left; exact D2|]. pose proof PI_RGT_0. lra.
  - assert (d_bbox (Rectangle 0 1 0 1 no_manip) = [0; 1; 0; 1]) as EB by (unfold Rectangle; apply no_manip_bbox).
    destruct (prepare_points five_backend (DObject (Rectangle 0 1 0 1 no_manip)) (SObject [0 - 1; 1; 0 - 1; 1 + 1] 1 (fun _ => 1)) (d_eval (Rectangle (Rmin 0 (0 - 1)) (Rmax 1 1) (Rmin 0 (0 - 1)) (Rmax 1 (1 + 1)) no_manip)) 1) as (P & p & EP & D2 & EH).
    + unfold meshed_fd, full_bbox. cbn [size_bbox dom_bbox]. rewrite EB. unfold box_eqb. destruct (list_eq_dec Req_EM_T _ _) as [Q|_]; [exfalso; injection Q as Q; lra|]. cbn [minmax_box negb box_fd]. reflexivity.
    + reflexivity.
    + lra.
    + unfold full_bbox. cbn [size_bbox dom_bbox]. rewrite EB. reflexivity.
    + exists P, p. split; [exact EP|]. lra.
Qed.
