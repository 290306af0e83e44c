(** The size-function pipeline (C07-C16, C18). *)
From Coq Require Import List ZArith Reals Lia Lra Psatz Bool.
From Verif Require Import Model.Base Model.FastHJ Model.Sizing Spec.Grid
  Proofs.ListAux Proofs.GridIndex Proofs.Limgrad Proofs.LimgradMain Proofs.SizingArr.
Import ListNotations.
Local Open Scope R_scope.

Lemma sbind_ok {A B} (r : sizing_result A) (k : A -> sizing_result B) b :
  sbind r k = SzOk b -> exists a, r = SzOk a /\ k a = SzOk b.
Proof. destruct r; cbn; intros H; try discriminate. eauto. Qed.

Definition int_grid (a : garr) : Prop :=
  (0 < n0 a)%nat /\ (0 < n1 a)%nat /\ (0 < n2 a)%nat /\
  (Z.of_nat (n0 a) * Z.of_nat (n1 a) * Z.of_nat (n2 a) <= 2 ^ 31)%Z.

Lemma int_grid_valid a : int_grid a -> valid_dims (n0 a) (n1 a) (n2 a).
Proof. intros H. exact H. Qed.
Lemma int_grid_pos a : int_grid a -> positive_shape a.
Proof. intros (H1 & H2 & H3 & _). repeat split; assumption. Qed.

Lemma shape_eq_inr a b i j k : shape_eq a b -> inr a i j k -> inr b i j k.
Proof. unfold shape_eq, inr. intros (_ & -> & -> & ->). auto. Qed.
Lemma shape_eq_refl a : shape_eq a a. Proof. repeat split. Qed.
Lemma shape_eq_sym a b : shape_eq a b -> shape_eq b a.
Proof. unfold shape_eq. intuition congruence. Qed.
Lemma shape_eq_trans a b c : shape_eq a b -> shape_eq b c -> shape_eq a c.
Proof. unfold shape_eq. intuition congruence. Qed.
Lemma shape_int_grid a b : shape_eq a b -> int_grid a -> int_grid b.
Proof. unfold shape_eq, int_grid. intros (_ & -> & -> & ->). auto. Qed.

Lemma convert_shape u vp : shape_eq (convert_units u vp) vp.
Proof. destruct u; repeat split. Qed.

Lemma replace_water_shape w vp vp1 : replace_water w vp = SzOk vp1 -> shape_eq vp1 vp.
Proof.
  unfold replace_water. destruct (water_trigger vp).
  - destruct w as [x|]; [|discriminate]. destruct (_ || _); [discriminate|]. intros H. injection H as <-. repeat split.
  - intros H. injection H as <-. repeat split.
Qed.

Lemma prepare_shape o vp vp1 : prepare_vp o vp = SzOk vp1 -> shape_eq vp1 vp.
Proof. intros H. eapply shape_eq_trans; [eapply replace_water_shape; exact H|apply convert_shape]. Qed.

Section P.
Variable ufilter : garr -> garr.

Lemma wavelength_shape vp wl freq a : wavelength_sizing vp wl freq = SzOk a -> shape_eq a vp.
Proof.
  unfold wavelength_sizing. repeat match goal with |- context[if ?c then _ else _] => destruct c end;
  intros H; try discriminate; injection H as <-; repeat split.
Qed.

Lemma initial_shape o vp a : initial_size ufilter o vp = SzOk a -> shape_eq a vp.
Proof.
  unfold initial_size. destruct (_ || _).
  - intros H. apply sbind_ok in H. destruct H as (x & Hx & H). apply sbind_ok in H. destruct H as (y & Hy & H).
    injection H as <-. apply wavelength_shape in Hx. destruct Hx as (E1 & E2 & E3 & E4). repeat split; cbn; assumption.
  - intros H. injection H as <-. repeat split.
Qed.

Lemma clamp_shape lo hi a : shape_eq (clamp lo hi a) a.
Proof. repeat split. Qed.

Lemma clamp_bounds lo hi a i j k : lo <= hi -> lo <= av (clamp lo hi a) i j k <= hi.
Proof.
  intros H. unfold clamp, amap; cbn [av]. unfold Rgtb.
  destruct (Rltb (av a i j k) lo) eqn:E1.
  - destruct (Rltb hi lo) eqn:E2; [apply Rltb_true in E2; lra|lra].
  - apply Rltb_false in E1. destruct (Rltb hi (av a i j k)) eqn:E2.
    + lra.
    + apply Rltb_false in E2. lra.
Qed.

Lemma clamp_le_raw lo hi a i j k : lo <= hi -> av (clamp lo hi a) i j k <= Rmax lo (av a i j k).
Proof.
  intros H. unfold clamp, amap; cbn [av]. unfold Rgtb.
  pose proof (Rmax_l lo (av a i j k)). pose proof (Rmax_r lo (av a i j k)).
  destruct (Rltb (av a i j k) lo) eqn:E1.
  - destruct (Rltb hi lo) eqn:E2; [apply Rltb_true in E2; lra|lra].
  - apply Rltb_false in E1. destruct (Rltb hi (av a i j k)) eqn:E2.
    + apply Rltb_true in E2. lra.
    + lra.
Qed.

Lemma courant_off vp a cr dt so : cr = 0 \/ dt = 0 \/ so = 0 -> courant vp a cr dt so = SzOk a.
Proof.
  intros H. unfold courant.
  destruct (Reqb cr 0) eqn:E1; [reflexivity|]. apply Reqb_false in E1.
  destruct (Reqb dt 0) eqn:E2; [reflexivity|]. apply Reqb_false in E2.
  destruct (Reqb so 0) eqn:E3; [reflexivity|]. apply Reqb_false in E3. tauto.
Qed.

Lemma courant_on_inv vp a cr dt so a' : courant vp a cr dt so = SzOk a' ->
  (cr = 0 \/ dt = 0 \/ so = 0) /\ a' = a \/
  0 < cr /\ 0 < dt /\ 1 <= so /\
  a' = amap2 (fun v s => if Rgtb (v * dt / (INR (adim vp) * s)) (cr / (INR (adim vp) * so))
                         then v * dt / (INR (adim vp) * (cr / (INR (adim vp) * so))) else s) vp a.
Proof.
  unfold courant.
  destruct (Reqb cr 0) eqn:E1; [apply Reqb_true in E1; intros H; injection H as <-; left; auto|]. apply Reqb_false in E1.
  destruct (Reqb dt 0) eqn:E2; [apply Reqb_true in E2; intros H; injection H as <-; left; auto|]. apply Reqb_false in E2.
  destruct (Reqb so 0) eqn:E3; [apply Reqb_true in E3; intros H; injection H as <-; left; auto|]. apply Reqb_false in E3.
  cbn [orb].
  destruct (Rltb cr 0) eqn:E4; [discriminate|]. apply Rltb_false in E4.
  destruct (Rltb dt 0) eqn:E5; [discriminate|]. apply Rltb_false in E5.
  destruct (Rltb so 1) eqn:E6; [discriminate|]. apply Rltb_false in E6.
  destruct (existsb _ _); [discriminate|].
  intros H. injection H as <-. right.
  split; [destruct E4 as [E4|E4]; [exact E4|congruence]|].
  split; [destruct E5 as [E5|E5]; [exact E5|congruence]|]. split; [exact E6|reflexivity].
Qed.

Lemma courant_shape vp a cr dt so a' : shape_eq a vp -> courant vp a cr dt so = SzOk a' -> shape_eq a' a.
Proof.
  intros Hs H. apply courant_on_inv in H. destruct H as [[_ ->]|(_ & _ & _ & ->)]; [apply shape_eq_refl|].
  destruct Hs as (E1 & E2 & E3 & E4). repeat split; cbn; congruence.
Qed.

(** pointwise effect of the Courant step *)
Lemma courant_point vp a cr dt so a' i j k :
  courant vp a cr dt so = SzOk a' -> 0 < cr -> 0 < dt -> 1 <= so -> (0 < adim vp)%nat -> 0 < av a i j k ->
  let d := INR (adim vp) in
  av a i j k <= av a' i j k /\
  av vp i j k * dt / (d * av a' i j k) <= cr / (d * so) /\
  (av vp i j k * dt / (d * av a i j k) <= cr / (d * so) -> av a' i j k = av a i j k).
Proof.
  intros H Hcr Hdt Hso Hdim Hpos d. apply courant_on_inv in H.
  destruct H as [[Hz _]|(_ & _ & _ & ->)]; [lra|]. unfold amap2; cbn [av].
  assert (Hd : 0 < d) by (apply lt_0_INR; exact Hdim).
  fold d. set (c := cr / (d * so)). set (v := av vp i j k). set (s := av a i j k) in *.
  assert (Hc : 0 < c) by (unfold c; apply Rdiv_lt_0_compat; nra).
  assert (Hds : 0 < d * s) by nra. assert (Hdc : 0 < d * c) by nra.
  unfold Rgtb. destruct (Rltb c (v * dt / (d * s))) eqn:E.
  - apply Rltb_true in E.
    assert (Hv : c * (d * s) < v * dt).
    { apply Rmult_lt_compat_r with (r := d * s) in E; [|exact Hds].
      replace (v * dt / (d * s) * (d * s)) with (v * dt) in E by (field; lra). exact E. }
    assert (Hgt : s < v * dt / (d * c)).
    { apply Rmult_lt_reg_r with (d * c); [exact Hdc|]. replace (v * dt / (d * c) * (d * c)) with (v * dt) by (field; lra). nra. }
    split; [lra|]. split.
    + assert (Hvdt : 0 < v * dt) by nra.
      assert (Hv0 : v <> 0) by (intros E0; rewrite E0 in Hvdt; lra).
      replace (v * dt / (d * (v * dt / (d * c)))) with c; [lra|]. field. repeat split; lra.
    + intros Hle. lra.
  - apply Rltb_false in E. repeat split; try lra.
Qed.

Lemma gradation_off a elen : gradation a 0 elen = SzOk a.
Proof. unfold gradation. rewrite (proj2 (Reqb_true 0 0)) by reflexivity. reflexivity. Qed.

Lemma gradation_inv a grade elen a' : int_grid a -> 0 <= elen ->
  (forall i j k, inr a i j k -> 0 <= av a i j k) ->
  gradation a grade elen = SzOk a' ->
  (grade = 0 /\ a' = a) \/
  (0 < grade /\ exists out,
     limgrad idR (Z.of_nat (n0 a)) (Z.of_nat (n1 a)) (Z.of_nat (n2 a)) elen grade max_sweeps (flattenF a) = Some out /\
     a' = reshapeF (adim a) (n0 a) (n1 a) (n2 a) out).
Proof.
  intros Hg He Hp. unfold gradation.
  destruct (Reqb grade 0) eqn:E1; [apply Reqb_true in E1; intros H; injection H as <-; auto|]. apply Reqb_false in E1.
  destruct (Rltb grade 0) eqn:E2; [discriminate|]. apply Rltb_false in E2.
  change (fun x : R => x) with idR.
  destruct (limgrad idR _ _ _ _ _ _ _) as [out|] eqn:EL; [|discriminate].
  intros H. injection H as <-. right. split; [destruct E2 as [E2|E2]; [exact E2|congruence]|]. exists out. split; reflexivity.
Qed.

Lemma gradation_shape a grade elen a' : gradation a grade elen = SzOk a' -> shape_eq a' a.
Proof.
  unfold gradation. destruct (Reqb grade 0); [intros H; injection H as <-; apply shape_eq_refl|].
  destruct (Rltb grade 0); [discriminate|].
  destruct (limgrad _ _ _ _ _ _ _ _); [|discriminate]. intros H. injection H as <-. repeat split.
Qed.

Lemma flattenF_forall a (P : R -> Prop) : (forall i j k, inr a i j k -> P (av a i j k)) -> forall x, In x (flattenF a) -> P x.
Proof. intros H x Hx. apply in_flattenF in Hx. destruct Hx as (i & j & k & Hin & <-). auto. Qed.

Lemma gradation_bounds a grade elen a' lo : int_grid a -> 0 <= elen -> 0 <= lo ->
  (forall i j k, inr a i j k -> lo <= av a i j k) ->
  gradation a grade elen = SzOk a' ->
  forall i j k, inr a i j k -> lo <= av a' i j k <= av a i j k.
Proof.
  intros Hg He Hlo Hlow H i j k Hin.
  assert (Hnn : forall i j k, inr a i j k -> 0 <= av a i j k) by (intros; eapply Rle_trans; [|apply Hlow]; assumption).
  destruct (gradation_inv a grade elen a' Hg He Hnn H) as [[-> ->]|(Hgr & out & EL & ->)].
  - split; [apply Hlow; exact Hin|lra].
  - destruct (refines_only idR (fun _ => True) idR_rounding (n0 a) (n1 a) (n2 a) elen grade max_sweeps (flattenF a)
       (int_grid_valid a Hg) (flattenF_length a) ltac:(apply Forall_forall; auto)
       (flattenF_forall a (fun x => 0 <= x) Hnn) He ltac:(lra)) as (o & Eo & HL & Hdec & Hmin).
    rewrite EL in Eo. injection Eo as <-. unfold reshapeF; cbn [av].
    specialize (Hdec (i + n0 a * (j + n1 a * k))%nat). rewrite nth_flattenF in Hdec by exact Hin.
    split; [|exact Hdec].
    assert (Hm := Hmin _ (is_min_min_list _ (flattenF_nonempty a (int_grid_pos a Hg)))).
    apply Rle_trans with (min_list (flattenF a)).
    + apply (flattenF_forall a (fun x => lo <= x) Hlow). apply min_list_in. apply flattenF_nonempty, int_grid_pos, Hg.
    + apply Hm. apply nth_In. rewrite HL, flattenF_length. destruct Hin as (Hi & Hj & Hk).
      assert (j + n1 a * k < n1 a * n2 a)%nat by nia. nia.
Qed.

(** decomposition of a successful call *)
Lemma get_sizing_inv o b vp a4 vp4 b4 : get_sizing ufilter o b vp = SzOk (a4, vp4, b4) ->
  exists vp1 a0 a2 a3,
    prepare_vp o vp = SzOk vp1 /\ (length b = 4 \/ length b = 6)%nat /\
    initial_size ufilter o vp1 = SzOk a0 /\
    courant vp1 (clamp (o_hmin o) (o_hmax o) a0) (o_cr_max o) (o_dt o) (o_space_order o) = SzOk a2 /\
    gradation a2 (o_grade o) ((bget b 1 - bget b 0) / INR (n0 vp1)) = SzOk a3 /\
    domain_pad a3 vp1 b (o_pad_style o) (o_domain_pad o) = SzOk (a4, vp4, b4) /\
    shape_eq vp1 vp /\ shape_eq a0 vp /\ shape_eq a2 vp /\ shape_eq a3 vp.
Proof.
  intros H. unfold get_sizing in H. apply sbind_ok in H. destruct H as (vp1 & H1 & H).
  unfold bbox_dim in H.
  assert (Hb : (length b = 4 \/ length b = 6)%nat).
  { destruct (Nat.eqb_spec (length b) 4); [auto|]. destruct (Nat.eqb_spec (length b) 6); [auto|discriminate]. }
  destruct (if Nat.eqb (length b) 4 then _ else _) in H; [|discriminate].
  apply sbind_ok in H. destruct H as (a0 & H2 & H).
  apply sbind_ok in H. destruct H as (a2 & H3 & H).
  apply sbind_ok in H. destruct H as (a3 & H4 & H).
  exists vp1, a0, a2, a3.
  assert (S1 : shape_eq vp1 vp) by (eapply prepare_shape; eauto).
  assert (S0 : shape_eq a0 vp1) by (eapply initial_shape; eauto).
  assert (S2 : shape_eq a2 (clamp (o_hmin o) (o_hmax o) a0)).
  { eapply courant_shape; [|exact H3]. eapply shape_eq_trans; [apply clamp_shape|exact S0]. }
  assert (S2' : shape_eq a2 vp).
  { eapply shape_eq_trans; [exact S2|]. eapply shape_eq_trans; [apply clamp_shape|]. eapply shape_eq_trans; eauto. }
  repeat (split; [assumption|]).
  split; [eapply shape_eq_trans; eauto|]. split; [exact S2'|].
  eapply shape_eq_trans; [eapply gradation_shape; exact H4|exact S2'].
Qed.

Lemma domain_pad_bounds a vp b st pad a' vp' b' lo hi : positive_shape a ->
  domain_pad a vp b st pad = SzOk (a', vp', b') ->
  (forall i j k, inr a i j k -> lo <= av a i j k <= hi) ->
  forall i j k, inr a' i j k -> lo <= av a' i j k <= hi.
Proof.
  intros Hp H Hb. unfold domain_pad in H. destruct (Rltb pad 0); [discriminate|].
  destruct (Rgtb pad 0); [|injection H as <- <- <-; exact Hb].
  destruct (pad_counts vp b pad) as [[p0 p1] p2].
  apply sbind_ok in H. destruct H as (x & Hx & H). apply sbind_ok in H. destruct H as (y & Hy & H).
  injection H as <- <- <-. eapply pad_it_bounds; eauto.
  destruct (amax_attained a Hp) as (i & j & k & Hin & <-). apply Hb. exact Hin.
Qed.

Definition elen_of (b : bbox) (vp : garr) : R := (bget b 1 - bget b 0) / INR (n0 vp).

Lemma elen_nonneg b vp : (0 < n0 vp)%nat -> bget b 0 <= bget b 1 -> 0 <= elen_of b vp.
Proof.
  intros H Hb. unfold elen_of, Rdiv. apply Rmult_le_pos; [lra|]. apply Rlt_le, Rinv_0_lt_compat, lt_0_INR, H.
Qed.

(** C07 *)
Lemma sizes_in_range o b vp a4 vp4 b4 :
  int_grid vp -> bget b 0 <= bget b 1 -> 0 <= o_hmin o <= o_hmax o ->
  (o_dt o = 0 \/ o_cr_max o = 0 \/ o_space_order o = 0) ->
  get_sizing ufilter o b vp = SzOk (a4, vp4, b4) ->
  forall i j k, inr a4 i j k -> o_hmin o <= av a4 i j k <= o_hmax o.
Proof.
  intros Hg Hb Hh Hdt H. apply get_sizing_inv in H.
  destruct H as (vp1 & a0 & a2 & a3 & H1 & _ & H2 & H3 & H4 & H5 & S1 & S0 & S2 & S3).
  rewrite courant_off in H3 by tauto. injection H3 as <-.
  eapply domain_pad_bounds; [|exact H5|].
  - apply int_grid_pos. eapply shape_int_grid; [apply shape_eq_sym; exact S3|exact Hg].
  - intros i j k Hin.
    assert (Hg2 : int_grid (clamp (o_hmin o) (o_hmax o) a0)) by (eapply shape_int_grid; [apply shape_eq_sym; exact S2|exact Hg]).
    assert (Hin2 : inr (clamp (o_hmin o) (o_hmax o) a0) i j k).
    { eapply shape_eq_inr; [|exact Hin]. eapply shape_eq_trans; [exact S3|apply shape_eq_sym; exact S2]. }
    assert (HE : 0 <= (bget b 1 - bget b 0) / INR (n0 vp1)).
    { apply (elen_nonneg b vp1); [|exact Hb]. destruct S1 as (_ & -> & _). apply Hg. }
    destruct (gradation_bounds _ _ _ _ (o_hmin o) Hg2 HE ltac:(lra)
               (fun i j k _ => proj1 (clamp_bounds (o_hmin o) (o_hmax o) a0 i j k (proj2 Hh))) H4 i j k Hin2) as [B1 B2].
    split; [exact B1|]. eapply Rle_trans; [exact B2|]. apply clamp_bounds. lra.
Qed.

(** C08 lower half: never below hmin, whatever dt *)
Lemma sizes_above_hmin o b vp a4 vp4 b4 :
  int_grid vp -> bget b 0 <= bget b 1 -> 0 < o_hmin o <= o_hmax o -> (0 < adim vp)%nat ->
  get_sizing ufilter o b vp = SzOk (a4, vp4, b4) ->
  forall i j k, inr a4 i j k -> o_hmin o <= av a4 i j k.
Proof.
  intros Hg Hb Hh Had H. apply get_sizing_inv in H.
  destruct H as (vp1 & a0 & a2 & a3 & H1 & _ & H2 & H3 & H4 & H5 & S1 & S0 & S2 & S3).
  assert (L2 : forall i j k, o_hmin o <= av a2 i j k).
  { intros i j k. pose proof (clamp_bounds (o_hmin o) (o_hmax o) a0 i j k ltac:(lra)) as Hc.
    destruct (courant_on_inv _ _ _ _ _ _ H3) as [[_ ->]|(Hcr & Hdt & Hso & _)]; [tauto|].
    destruct (courant_point _ _ _ _ _ _ i j k H3 Hcr Hdt Hso) as [Hle _]; [destruct S1 as (-> & _); exact Had|lra|lra]. }
  assert (Hg2 : int_grid a2) by (eapply shape_int_grid; [apply shape_eq_sym; exact S2|exact Hg]).
  assert (HE : 0 <= (bget b 1 - bget b 0) / INR (n0 vp1)).
  { apply (elen_nonneg b vp1); [|exact Hb]. destruct S1 as (_ & -> & _). apply Hg. }
  assert (B3 : forall i j k, inr a3 i j k -> o_hmin o <= av a3 i j k <= amax a3).
  { intros i j k Hin. split; [|apply amax_ge; exact Hin].
    destruct (gradation_bounds _ _ _ _ (o_hmin o) Hg2 HE ltac:(lra) (fun i j k _ => L2 i j k) H4 i j k) as [B1 B2]; [|exact B1].
    eapply shape_eq_inr; [|exact Hin]. eapply shape_eq_trans; [exact S3|apply shape_eq_sym; exact S2]. }
  intros i j k Hin.
  eapply (fun X => proj1 (domain_pad_bounds _ _ _ _ _ _ _ _ (o_hmin o) (amax a3) X H5 B3 i j k Hin)).
  apply int_grid_pos. eapply shape_int_grid; [apply shape_eq_sym; exact S3|exact Hg].
Qed.

(** layers in front of the original block *)
Definition pad_of (o : opts) (b : bbox) (vp : garr) : nat * nat * nat :=
  if Rgtb (o_domain_pad o) 0 then pad_counts vp b (o_domain_pad o) else (0, 0, 0)%nat.

Lemma domain_pad_inner a vp b st pad a' vp' b' p0 p1 p2 i j k :
  domain_pad a vp b st pad = SzOk (a', vp', b') ->
  (if Rgtb pad 0 then pad_counts vp b pad else (0, 0, 0)%nat) = (p0, p1, p2) ->
  inr a i j k -> av a' (p0 + i)%nat (p1 + j)%nat (p2 + k)%nat = av a i j k.
Proof.
  intros H Hp Hin. unfold domain_pad in H. destruct (Rltb pad 0); [discriminate|].
  destruct (Rgtb pad 0).
  - destruct (pad_counts vp b pad) as [[q0 q1] q2]. injection Hp as -> -> ->.
    apply sbind_ok in H. destruct H as (x & Hx & H). apply sbind_ok in H. destruct H as (y & Hy & H).
    injection H as <- <- <-. eapply pad_it_inner; eauto.
  - injection H as <- <- <-. injection Hp as <- <- <-. reflexivity.
Qed.

(** C11 *)
Lemma cells_per_wavelength o b vp vp1 a4 vp4 b4 p0 p1 p2 :
  int_grid vp -> bget b 0 <= bget b 1 -> 0 <= o_hmin o <= o_hmax o ->
  (o_dt o = 0 \/ o_cr_max o = 0 \/ o_space_order o = 0) -> 0 < o_wl o ->
  prepare_vp o vp = SzOk vp1 -> pad_of o b vp = (p0, p1, p2) ->
  get_sizing ufilter o b vp = SzOk (a4, vp4, b4) ->
  forall i j k, inr vp i j k ->
  av a4 (p0 + i)%nat (p1 + j)%nat (p2 + k)%nat <= Rmax (o_hmin o) (av vp1 i j k / (o_freq o * o_wl o)).
Proof.
  intros Hg Hb Hh Hdt Hwl Hprep Hpad H i j k Hin. apply get_sizing_inv in H.
  destruct H as (vp1' & a0 & a2 & a3 & H1 & _ & H2 & H3 & H4 & H5 & S1 & S0 & S2 & S3).
  rewrite Hprep in H1. injection H1 as <-.
  rewrite courant_off in H3 by tauto. injection H3 as <-.
  assert (Hg2 : int_grid (clamp (o_hmin o) (o_hmax o) a0)) by (eapply shape_int_grid; [apply shape_eq_sym; exact S2|exact Hg]).
  assert (Hin2 : inr (clamp (o_hmin o) (o_hmax o) a0) i j k) by (eapply shape_eq_inr; [apply shape_eq_sym; exact S2|exact Hin]).
  assert (HE : 0 <= (bget b 1 - bget b 0) / INR (n0 vp1)).
  { apply (elen_nonneg b vp1); [|exact Hb]. destruct S1 as (_ & -> & _). apply Hg. }
  assert (Epad : pad_of o b vp1 = (p0, p1, p2)).
  { rewrite <- Hpad. unfold pad_of, pad_counts, dz_of, dx_of, dy_of. destruct S1 as (-> & -> & -> & ->). reflexivity. }
  assert (Hin3 : inr a3 i j k) by (eapply shape_eq_inr; [apply shape_eq_sym; exact S3|exact Hin]).
  rewrite (domain_pad_inner _ _ _ _ _ _ _ _ p0 p1 p2 i j k H5 Epad Hin3).
  destruct (gradation_bounds _ _ _ _ (o_hmin o) Hg2 HE ltac:(lra)
             (fun i j k _ => proj1 (clamp_bounds (o_hmin o) (o_hmax o) a0 i j k (proj2 Hh))) H4 i j k Hin2) as [B1 B2].
  eapply Rle_trans; [exact B2|]. eapply Rle_trans; [apply clamp_le_raw; lra|].
  apply Rmax_lub; [apply Rmax_l|].
  eapply Rle_trans; [|apply Rmax_r].
  unfold initial_size in H2. unfold Rgtb in H2.
  rewrite (proj2 (Rltb_true 0 (o_wl o)) Hwl) in H2. cbn [orb] in H2.
  apply sbind_ok in H2. destruct H2 as (x & Hx & H2). apply sbind_ok in H2. destruct H2 as (y & Hy & H2).
  injection H2 as <-. unfold amap2; cbn [av]. eapply Rle_trans; [apply Rmin_l|].
  unfold wavelength_sizing in Hx.
  rewrite (proj2 (Reqb_false (o_wl o) 0)) in Hx by lra. rewrite (proj2 (Rltb_false (o_wl o) 0)) in Hx by lra.
  destruct (Rltb (o_freq o) 0); [discriminate|]. destruct (Reqb _ 0); [discriminate|].
  injection Hx as <-. unfold amap; cbn [av]. lra.
Qed.
End P.
