(** Boxes and corner lists of transformed domains; Repeat; stretch-array aliasing. *)
From Coq Require Import List ZArith Reals Bool Lra Lia.
From Verif Require Import Model.Base Model.SDF Spec.Geom Spec.Domains Spec.Transform Proofs.SDFPrim Proofs.SDFSets Proofs.SDFXform.
Import ListNotations.
Local Open Scope R_scope.

(** ---- corners ---- *)
Lemma list_ind2 {A} (P : list A -> Prop) : P [] -> (forall a, P [a]) -> (forall a b l, P l -> P (a :: b :: l)) -> forall l, P l.
Proof.
  intros H0 H1 H2 l. assert (P l /\ forall a, P (a :: l)); [|tauto].
  induction l as [|b l [IH1 IH2]]; [auto|]. split; [apply IH2|]. intros a. apply H2, IH1.
Qed.
Lemma corners_cons lo hi b : corners (lo :: hi :: b) = map (cons lo) (corners b) ++ map (cons hi) (corners b).
Proof. cbn [corners flat_map]. rewrite app_nil_r. reflexivity. Qed.
Lemma corners_spec b : forall n p, length b = (2 * n)%nat -> (In p (corners b) <-> is_corner b p).
Proof.
  induction b as [|a|lo hi b IH] using list_ind2; intros n p L.
  - cbn. split; [intros [<- | []]; constructor|]. intros H; inversion H. left; reflexivity.
  - cbn in L. lia.
  - rewrite corners_cons, in_app_iff, !in_map_iff. cbn in L. split.
    + intros [[q [<- Hq]]|[q [<- Hq]]]; apply (IH (n - 1)%nat) in Hq; try lia; [apply ic_lo|apply ic_hi]; exact Hq.
    + intros H. inversion H; subst; [left|right]; eexists; (split; [reflexivity|]); apply (IH (n - 1)%nat); try lia; assumption.
Qed.
Lemma corners_length b : forall n, length b = (2 * n)%nat -> length (corners b) = (2 ^ n)%nat.
Proof.
  induction b as [|a|lo hi b IH] using list_ind2; intros n L.
  - cbn in L. destruct n; [reflexivity|lia].
  - cbn in L. lia.
  - destruct n as [|n]; [cbn in L; lia|]. rewrite corners_cons, app_length, !map_length, (IH n) by (cbn in L; lia). cbn [Nat.pow]. lia.
Qed.
Lemma NoDup_map_cons {A} (x : A) l : NoDup l -> NoDup (map (cons x) l).
Proof.
  induction l as [|a l IH]; intros H; [constructor|]. inversion H; subst. cbn. constructor; [|apply IH; assumption].
  intros I. apply in_map_iff in I. destruct I as [y [E I]]. inversion E; subst. contradiction.
Qed.
Lemma NoDup_app' {A} (l m : list A) : NoDup l -> NoDup m -> (forall x, In x l -> In x m -> False) -> NoDup (l ++ m).
Proof.
  induction l as [|a l IH]; intros Hl Hm HD; [exact Hm|]. inversion Hl; subst. cbn. constructor.
  - rewrite in_app_iff. intros [I|I]; [contradiction|]. apply (HD a); [left; reflexivity|exact I].
  - apply IH; try assumption. intros x I J. apply (HD x); [right; exact I|exact J].
Qed.
Lemma corners_nodup b : proper_box b -> NoDup (corners b).
Proof.
  induction 1 as [|lo hi b H HB IH]; [cbn; constructor; [intros []|constructor]|].
  rewrite corners_cons. apply NoDup_app'; try (apply NoDup_map_cons; exact IH).
  intros x I J. apply in_map_iff in I. apply in_map_iff in J. destruct I as [u [<- _]], J as [v [E _]]. inversion E; lra.
Qed.

(** ---- linear functionals over a box ---- *)
Lemma dot_cons a u b v : dot (a :: u) (b :: v) = a * b + dot u v. Proof. reflexivity. Qed.
Lemma corner_below b q : in_box b q -> forall c, length c = length q ->
  exists k, In k (corners b) /\ length k = length q /\ dot c k <= dot c q.
Proof.
  induction 1 as [|lo hi b x q H HB IH]; intros c L.
  - exists []. cbn. split; [left; reflexivity|]. split; [reflexivity|]. destruct c; [cbn; lra|discriminate].
  - destruct c as [|c0 c]; [discriminate|]. destruct (IH c) as (k & Ik & Lk & Hk); [cbn in L; lia|].
    destruct (Rle_dec 0 c0) as [P|P].
    + exists (lo :: k). split; [rewrite corners_cons, in_app_iff; left; apply in_map; exact Ik|].
      split; [cbn; lia|]. rewrite !dot_cons. pose proof (Rmult_le_compat_l c0 lo x P ltac:(lra)). lra.
    + exists (hi :: k). split; [rewrite corners_cons, in_app_iff; right; apply in_map; exact Ik|].
      split; [cbn; lia|]. rewrite !dot_cons. pose proof (Rmult_le_compat_neg_l c0 x hi ltac:(lra) ltac:(lra)). lra.
Qed.
Lemma dot_opp c k : dot (map Ropp c) k = - dot c k.
Proof.
  revert k. induction c as [|a c IH]; intros [|b k]; try (cbn; lra). cbn [map]. rewrite !dot_cons, IH. ring.
Qed.
Lemma corner_above b q c : in_box b q -> length c = length q ->
  exists k, In k (corners b) /\ length k = length q /\ dot c q <= dot c k.
Proof.
  intros H L. destruct (corner_below b q H (map Ropp c)) as (k & I & Lk & Hk); [rewrite map_length; exact L|].
  exists k. rewrite !dot_opp in Hk. split; [exact I|]. split; [exact Lk|lra].
Qed.

Lemma in_box_seq lo hi n : forall s p, length p = n -> (forall i, (i < n)%nat -> lo (s + i)%nat <= nth i p 0 <= hi (s + i)%nat) ->
  in_box (flat_map (fun i => [lo i; hi i]) (seq s n)) p.
Proof.
  induction n as [|n IH]; intros s p L H; destruct p as [|x p]; try discriminate; [constructor|].
  cbn. constructor.
  - specialize (H 0%nat ltac:(lia)). rewrite Nat.add_0_r in H. exact H.
  - apply IH; [cbn in L; lia|]. intros i Hi. specialize (H (S i) ltac:(lia)). replace (s + S i)%nat with (S s + i)%nat in H by lia. exact H.
Qed.

Lemma image_bbox_in n b q L (row : nat -> list R) : in_box b q -> length (L q) = n ->
  (forall i, (i < n)%nat -> length (row i) = length q) ->
  (forall i k, (i < n)%nat -> length k = length q -> nth i (L k) 0 = dot (row i) k) ->
  in_box (image_bbox n (map L (corners b))) (L q).
Proof.
  intros HB HL HR HN. unfold image_bbox. apply (in_box_seq
    (fun i => min_list (map (fun p => nth i p 0) (map L (corners b)))) (fun i => max_list (map (fun p => nth i p 0) (map L (corners b))))); [exact HL|].
  intros i Hi. cbn [Nat.add]. rewrite (HN i q Hi eq_refl). split.
  - destruct (corner_below b q HB (row i) (HR i Hi)) as (k & I & Lk & Hk). rewrite <- (HN i k Hi Lk) in Hk.
    eapply Rle_trans; [apply min_list_le|exact Hk]. apply in_map_iff. exists (L k). split; [reflexivity|apply in_map; exact I].
  - destruct (corner_above b q (row i) HB (HR i Hi)) as (k & I & Lk & Hk). rewrite <- (HN i k Hi Lk) in Hk.
    eapply Rle_trans; [exact Hk|apply max_list_ge]. apply in_map_iff. exists (L k). split; [reflexivity|apply in_map; exact I].
Qed.

(** rows of the stretch *)
Definition srow (u : list R) (al : R) (i : nat) : list R :=
  map (fun j => nth j u 0 * nth i u 0 * (al - 1) + (if Nat.eqb i j then 1 else 0)) (seq 0 (length u)).
Lemma stretch_row2 u v al i k : (i < 2)%nat -> length k = 2%nat -> nth i (stretch_point [u; v] al k) 0 = dot (srow [u; v] al i) k.
Proof.
  intros Hi L. destruct (len2 k L) as (x & y & ->). destruct i as [|[|i]]; [| |lia]; unfold stretch_point, srow, dot, map2; cbn; ring.
Qed.
Lemma stretch_row3 u v w al i k : (i < 3)%nat -> length k = 3%nat -> nth i (stretch_point [u; v; w] al k) 0 = dot (srow [u; v; w] al i) k.
Proof.
  intros Hi L. destruct (len3 k L) as (x & y & z & ->). destruct i as [|[|[|i]]]; [| | |lia]; unfold stretch_point, srow, dot, map2; cbn; ring.
Qed.
Lemma matvec_row m i k : (i < length m)%nat -> nth i (mat_vec m k) 0 = dot (nth i m []) k.
Proof.
  intros H. unfold mat_vec. assert (0 = (fun row => dot row k) []) as -> by reflexivity. apply (map_nth (fun row => dot row k)).
Qed.

Lemma stretch_stage2 s b q : stretch_ok 2 s -> length q = 2%nat -> in_box b q -> forall c m, m_stretch m = s ->
  in_box (fst (build_stretch 2 m (b, c))) (opt_pt stretch_pt s q).
Proof.
  intros Hs L HB c m E. unfold build_stretch. rewrite E. destruct s as [w|]; [|exact HB]. destruct Hs as [Lw N].
  destruct (len2 w Lw) as (u & v & ->). destruct (len2 q L) as (x & y & ->). cbn [opt_pt fst]. rewrite <- sp2 by exact N.
  apply (image_bbox_in 2 b [x; y] (stretch_point (normalise [u; v]) (norm2 [u; v])) (srow (normalise [u; v]) (norm2 [u; v]))); try assumption; try reflexivity.
  intros i k Hi Lk. apply stretch_row2; assumption.
Qed.
Lemma stretch_stage3 s b q : stretch_ok 3 s -> length q = 3%nat -> in_box b q -> forall c m, m_stretch m = s ->
  in_box (fst (build_stretch 3 m (b, c))) (opt_pt stretch_pt s q).
Proof.
  intros Hs L HB c m E. unfold build_stretch. rewrite E. destruct s as [w|]; [|exact HB]. destruct Hs as [Lw N].
  destruct (len3 w Lw) as (u & v & z & ->). destruct (len3 q L) as (x & y & y' & ->). cbn [opt_pt fst]. rewrite <- sp3 by exact N.
  apply (image_bbox_in 3 b [x; y; y'] (stretch_point (normalise [u; v; z]) (norm2 [u; v; z])) (srow (normalise [u; v; z]) (norm2 [u; v; z]))); try assumption; try reflexivity.
  intros i k Hi Lk. apply stretch_row3; assumption.
Qed.
Lemma rot_img2 a b q : in_box b q -> length q = 2%nat -> in_box (image_bbox 2 (map (mat_vec (rot2 a)) (corners b))) (rot2_pt a q).
Proof.
  intros HB L. assert (rot2_pt a q = mat_vec (rot2 a) q) as ->.
  { destruct (len2 q L) as (x & y & ->). unfold mat_vec, dot, map2. cbn. peel; ring. }
  apply (image_bbox_in 2 b q (mat_vec (rot2 a)) (fun i => nth i (rot2 a) [])); try assumption; try reflexivity.
  - intros i Hi. rewrite L. destruct i as [|[|i]]; [reflexivity|reflexivity|lia].
  - intros i k Hi Lk. apply matvec_row. exact Hi.
Qed.
Lemma rot_img3 R f b q : in_box b q -> length q = 3%nat -> (forall x y z, f [x; y; z] = mat_vec R [x; y; z]) -> length R = 3%nat ->
  (forall i, (i < 3)%nat -> length (nth i R []) = 3%nat) ->
  in_box (image_bbox 3 (map (mat_vec R) (corners b))) (f q).
Proof.
  intros HB L Hf HR Hrow. assert (f q = mat_vec R q) as ->.
  { destruct (len3 q L) as (x & y & z & ->). apply Hf. }
  apply (image_bbox_in 3 b q (mat_vec R) (fun i => nth i R [])); try assumption.
  - unfold mat_vec. rewrite map_length. exact HR.
  - intros i Hi. rewrite L. apply Hrow, Hi.
  - intros i k Hi Lk. apply matvec_row. lia.
Qed.
Lemma rotx_mv a x y z : rotx_pt a [x; y; z] = mat_vec (rot_x a) [x; y; z].
Proof. unfold mat_vec, dot, map2. cbn. peel; ring. Qed.
Lemma roty_mv a x y z : roty_pt a [x; y; z] = mat_vec (rot_y a) [x; y; z].
Proof. unfold mat_vec, dot, map2. cbn. peel; ring. Qed.
Lemma rotz_mv a x y z : rotz_pt a [x; y; z] = mat_vec (rot_z a) [x; y; z].
Proof. unfold mat_vec, dot, map2. cbn. peel; ring. Qed.
Lemma rows3 i (r : R * R * R * (R * R * R) * (R * R * R)) : (i < 3)%nat -> forall a b c d e f g h k : R,
  length (nth i [[a; b; c]; [d; e; f]; [g; h; k]] []) = 3%nat.
Proof. intros Hi. destruct i as [|[|[|i]]]; try reflexivity. lia. Qed.

Lemma len6 (b : list R) : length b = 6%nat -> exists u v w x y z, b = [u; v; w; x; y; z].
Proof. destruct b as [|? [|? [|? [|? [|? [|? [|? ?]]]]]]]; try discriminate. repeat eexists. Qed.
Lemma min3_le x y z t : (x <= t \/ y <= t \/ z <= t) -> min3 x y z <= t.
Proof. unfold min3. intros H. pose proof (Rmin_l (Rmin x y) z). pose proof (Rmin_r (Rmin x y) z). pose proof (Rmin_l x y). pose proof (Rmin_r x y). lra. Qed.
Lemma max3_ge x y z t : (t <= x \/ t <= y \/ t <= z) -> t <= max3 x y z.
Proof. unfold max3. intros H. pose proof (Rmax_l (Rmax x y) z). pose proof (Rmax_r (Rmax x y) z). pose proof (Rmax_l x y). pose proof (Rmax_r x y). lra. Qed.
Lemma in_box3 b x y z : in_box b [x; y; z] <-> exists u v w s t r, b = [u; v; w; s; t; r] /\ u <= x <= v /\ w <= y <= s /\ t <= z <= r.
Proof.
  split.
  - intros H. inversion H as [|? ? ? ? ? H1 I1]; subst. inversion I1 as [|? ? ? ? ? H2 I2]; subst. inversion I2 as [|? ? ? ? ? H3 I3]; subst.
    inversion I3; subst. repeat eexists; lra.
  - intros (u & v & w & s & t & r & -> & H1 & H2 & H3). constructor; [exact H1|]. constructor; [exact H2|]. constructor; [exact H3|]. constructor.
Qed.
Lemma merge_in bx by_ bz p : length p = 3%nat -> length bx = 6%nat -> length by_ = 6%nat -> length bz = 6%nat ->
  (in_box bx p \/ in_box by_ p \/ in_box bz p) -> in_box (merge3 false bx by_ bz) p.
Proof.
  intros Lp Lx Ly Lz H. destruct (len3 p Lp) as (x & y & z & ->).
  destruct (len6 bx Lx) as (x1 & x2 & x3 & x4 & x5 & x6 & ->). destruct (len6 by_ Ly) as (y1 & y2 & y3 & y4 & y5 & y6 & ->).
  destruct (len6 bz Lz) as (z1 & z2 & z3 & z4 & z5 & z6 & ->). rewrite !in_box3 in H. apply in_box3.
  cbn [merge3 negb]. do 6 eexists. split; [reflexivity|].
  assert ((x1 <= x <= x2 /\ x3 <= y <= x4 /\ x5 <= z <= x6) \/ (y1 <= x <= y2 /\ y3 <= y <= y4 /\ y5 <= z <= y6) \/ (z1 <= x <= z2 /\ z3 <= y <= z4 /\ z5 <= z <= z6)) as K.
  { destruct H as [H|[H|H]]; destruct H as (? & ? & ? & ? & ? & ? & E & ?); inversion E; subst; tauto. }
  clear H. repeat split; first [apply min3_le|apply max3_ge]; lra.
Qed.
Lemma image_bbox_len3 ps : length (image_bbox 3 ps) = 6%nat. Proof. reflexivity. Qed.
Lemma in_box_len b p : in_box b p -> length b = (2 * length p)%nat.
Proof. induction 1; cbn in *; lia. Qed.

Lemma rot_stage3 a b c bx q : one_axis a b c -> length q = 3%nat -> in_box bx q -> forall cs m, m_rot m = (a, b, c) ->
  in_box (fst (build_rotation 3 m (bx, cs))) (rotx_pt a (roty_pt b (rotz_pt c q))).
Proof.
  intros H1 L HB cs m E. unfold build_rotation. rewrite E. cbn [Nat.eqb fst].
  pose proof (in_box_len _ _ HB) as LB. rewrite L in LB. cbn in LB.
  destruct (Reqb a 0) eqn:Ea; [apply Reqb_true in Ea; subst a; rewrite rotx_0|apply Reqb_false in Ea];
  (destruct (Reqb b 0) eqn:Eb; [apply Reqb_true in Eb; subst b; rewrite roty_0|apply Reqb_false in Eb]);
  (destruct (Reqb c 0) eqn:Ec; [apply Reqb_true in Ec; subst c; rewrite rotz_0|apply Reqb_false in Ec]);
  cbn [andb]; try exact HB; try (exfalso; unfold one_axis in H1; intuition congruence);
  cbn [fst]; (apply merge_in; [rewrite ?rotx_len, ?roty_len, ?rotz_len; exact L|try exact LB; reflexivity ..|]).
  - right; right. apply rot_img3; try assumption; try reflexivity; [apply rotz_mv|]. intros i Hi. apply (rows3 i (0,0,0,(0,0,0),(0,0,0)) Hi).
  - right; left. apply rot_img3; try assumption; try reflexivity; [apply roty_mv|]. intros i Hi. apply (rows3 i (0,0,0,(0,0,0),(0,0,0)) Hi).
  - left. apply rot_img3; try assumption; try reflexivity; [apply rotx_mv|]. intros i Hi. apply (rows3 i (0,0,0,(0,0,0),(0,0,0)) Hi).
Qed.
Lemma rot_stage2 a bx q : length q = 2%nat -> in_box bx q -> forall cs m, m_rot m = (a, 0, 0) ->
  in_box (fst (build_rotation 2 m (bx, cs))) (rot2_pt a q).
Proof.
  intros L HB cs m E. unfold build_rotation. rewrite E. cbn [Nat.eqb].
  destruct (Reqb a 0) eqn:Ea; [apply Reqb_true in Ea; subst a; rewrite rot2_0; exact HB|]. cbn [fst]. apply rot_img2; assumption.
Qed.
Lemma trans_stage n t b q : trans_ok n t -> (n = 2 \/ n = 3)%nat -> length q = n -> in_box b q -> forall cs m, m_trans m = t ->
  in_box (fst (build_translation m (b, cs))) (opt_pt translate_pt t q).
Proof.
  intros Ht Hn L HB cs m E. unfold build_translation. rewrite E. destruct t as [t|]; [|exact HB]. cbn [fst opt_pt]. cbn in Ht.
  destruct Hn as [-> | ->].
  - destruct (len2 t Ht) as (u & v & ->). destruct (len2 q L) as (x & y & ->).
    inversion HB as [|? ? ? ? ? H1 I1]; subst. inversion I1 as [|? ? ? ? ? H2 I2]; subst. inversion I2; subst.
    cbn. constructor; [lra|]. constructor; [lra|]. constructor.
  - destruct (len3 t Ht) as (u & v & w & ->). destruct (len3 q L) as (x & y & z & ->).
    inversion HB as [|? ? ? ? ? H1 I1]; subst. inversion I1 as [|? ? ? ? ? H2 I2]; subst. inversion I2 as [|? ? ? ? ? H3 I3]; subst. inversion I3; subst.
    cbn. constructor; [lra|]. constructor; [lra|]. constructor; [lra|]. constructor.
Qed.

Lemma make_prim_box2 b0 c0 f keep s a t : stretch_ok 2 s -> trans_ok 2 t ->
  (forall q, length q = 2%nat -> f q <= 0 -> in_box b0 q) ->
  box_contains (make_prim 2 (manip2 s a t) b0 c0 f keep).
Proof.
  intros Hs Ht Hf p Hp L. cbn in L. cbn [make_prim d_eval d_bbox] in *.
  destruct (manipulate2_fb s a t p Hs Ht L) as [E Lq]. set (q := manipulate 2 (manip2 s a t) p) in *.
  pose proof (Hf q Lq Hp) as HB. rewrite <- E. unfold forward2, configure.
  destruct (build_stretch 2 (manip2 s a t) (b0, c0)) as [b1 c1] eqn:E1.
  destruct (build_rotation 2 (manip2 s a t) (b1, c1)) as [b2 c2] eqn:E2.
  pose proof (stretch_stage2 s b0 q Hs Lq HB c0 (manip2 s a t) eq_refl) as H1. rewrite E1 in H1. cbn [fst] in H1.
  assert (length (opt_pt stretch_pt s q) = 2%nat) as L1 by (rewrite opt_len by apply stretch_len; exact Lq).
  pose proof (rot_stage2 a b1 _ L1 H1 c1 (manip2 s a t) eq_refl) as H2. rewrite E2 in H2. cbn [fst] in H2.
  apply (trans_stage 2); auto. rewrite rot2_len. exact L1.
Qed.
Lemma make_prim_box3 b0 c0 f keep s a b c t : stretch_ok 3 s -> trans_ok 3 t -> one_axis a b c ->
  (forall q, length q = 3%nat -> f q <= 0 -> in_box b0 q) ->
  box_contains (make_prim 3 (manip3 s a b c t) b0 c0 f keep).
Proof.
  intros Hs Ht H1a Hf p Hp L. cbn in L. cbn [make_prim d_eval d_bbox] in *.
  destruct (manipulate3_fb s a b c t p Hs Ht L) as [E Lq]. set (q := manipulate 3 (manip3 s a b c t) p) in *.
  pose proof (Hf q Lq Hp) as HB. rewrite <- E. unfold forward3, configure.
  destruct (build_stretch 3 (manip3 s a b c t) (b0, c0)) as [b1 c1] eqn:E1.
  destruct (build_rotation 3 (manip3 s a b c t) (b1, c1)) as [b2 c2] eqn:E2.
  pose proof (stretch_stage3 s b0 q Hs Lq HB c0 (manip3 s a b c t) eq_refl) as H1. rewrite E1 in H1. cbn [fst] in H1.
  assert (length (opt_pt stretch_pt s q) = 3%nat) as L1 by (rewrite opt_len by apply stretch_len; exact Lq).
  pose proof (rot_stage3 a b c b1 _ H1a L1 H1 c1 (manip3 s a b c t) eq_refl) as H2. rewrite E2 in H2. cbn [fst] in H2.
  apply (trans_stage 3); auto. rewrite rotx_len, roty_len, rotz_len. exact L1.
Qed.

(** untransformed boxes of the seven primitives *)
Lemma disk_in_box xc yc r q : length q = 2%nat -> ddisk xc yc r q <= 0 -> in_box [xc - r; xc + r; yc - r; yc + r] q.
Proof.
  intros L H. destruct (len2 q L) as (x & y & ->). cbn [ddisk] in H.
  pose proof (sqrt_pos ((x - xc) ^ 2 + (y - yc) ^ 2)). assert (0 <= r) as Hr by lra.
  assert (sqrt ((x - xc) * (x - xc) + (y - yc) * (y - yc)) <= r) as H' by (replace ((x - xc) * (x - xc) + (y - yc) * (y - yc)) with ((x - xc) ^ 2 + (y - yc) ^ 2) by ring; lra).
  apply sqrt_sq_le in H'; [|apply sq2|exact Hr]. pose proof (sq_nn (x - xc)). pose proof (sq_nn (y - yc)).
  pose proof (sq_bound (x - xc) r Hr ltac:(lra)). pose proof (sq_bound (y - yc) r Hr ltac:(lra)).
  constructor; [lra|]. constructor; [lra|]. constructor.
Qed.
Lemma ball_in_box xc yc zc r q : length q = 3%nat -> dball xc yc zc r q <= 0 -> in_box [xc - r; xc + r; yc - r; yc + r; zc - r; zc + r] q.
Proof.
  intros L H. destruct (len3 q L) as (x & y & z & ->). cbn [dball] in H.
  pose proof (sqrt_pos ((x - xc) ^ 2 + (y - yc) ^ 2 + (z - zc) ^ 2)). assert (0 <= r) as Hr by lra.
  assert (sqrt ((x - xc) * (x - xc) + (y - yc) * (y - yc) + (z - zc) * (z - zc)) <= r) as H' by (replace ((x - xc) * (x - xc) + (y - yc) * (y - yc) + (z - zc) * (z - zc)) with ((x - xc) ^ 2 + (y - yc) ^ 2 + (z - zc) ^ 2) by ring; lra).
  pose proof (sq_nn (x - xc)). pose proof (sq_nn (y - yc)). pose proof (sq_nn (z - zc)).
  apply sqrt_sq_le in H'; [|lra|exact Hr].
  pose proof (sq_bound (x - xc) r Hr ltac:(lra)). pose proof (sq_bound (y - yc) r Hr ltac:(lra)). pose proof (sq_bound (z - zc) r Hr ltac:(lra)).
  constructor; [lra|]. constructor; [lra|]. constructor; [lra|]. constructor.
Qed.
Lemma rect_in_box x1 x2 y1 y2 q : length q = 2%nat -> c_drectangle (fun t => t) x1 x2 y1 y2 q <= 0 -> in_box [x1; x2; y1; y2] q.
Proof.
  intros L H. destruct (len2 q L) as (x & y & ->). rewrite rect_bd in H. apply bd_box in H; [exact H|]. repeat constructor.
Qed.
Lemma cube_in_box x1 x2 y1 y2 z1 z2 q : length q = 3%nat -> c_dblock (fun t => t) x1 x2 y1 y2 z1 z2 q <= 0 -> in_box [x1; x2; y1; y2; z1; z2] q.
Proof.
  intros L H. destruct (len3 q L) as (x & y & z & ->). rewrite block_bd in H. apply bd_box in H; [exact H|]. repeat constructor.
Qed.
Lemma no_manip_eval dim b c f keep q : d_eval (make_prim dim no_manip b c f keep) q = f q.
Proof. cbn [make_prim d_eval]. rewrite manipulate_none. reflexivity. Qed.
Lemma no_manip_bbox dim b c f keep : d_bbox (make_prim dim no_manip b c f keep) = b.
Proof.
  cbn [make_prim d_bbox]. unfold configure, build_translation, build_rotation, build_stretch. cbn [m_trans m_rot m_stretch no_manip].
  rewrite Reqb_refl. cbn [andb]. destruct (Nat.eqb dim 2); reflexivity.
Qed.
