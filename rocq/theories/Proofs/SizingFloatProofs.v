(** The size-function pipeline in float32/float64 (C109, C110). *)
From Coq Require Import List ZArith Reals Lia Lra Psatz Bool.
From Flocq Require Import Core Relative.
From Verif Require Import Model.Base Model.FastHJ Model.Sizing Model.SizingFloat Spec.Grid Spec.Precision
  Proofs.ListAux Proofs.GridIndex Proofs.Limgrad Proofs.LimgradMain Proofs.SizingArr Proofs.SizingMain Proofs.SnapProofs.
Import ListNotations.
Local Open Scope R_scope.

Lemma rd_number t x : number t (rd t x).
Proof. destruct t; [apply generic_format_round; [apply FLT_exp_valid; unfold Prec_gt_0; lia|apply valid_rnd_N]|]. apply generic_format_round; [apply FLT_exp_valid; unfold Prec_gt_0; lia|apply valid_rnd_N]. Qed.
Lemma rd_id t x : number t x -> rd t x = x.
Proof. destruct t; intros H; apply round_generic; [apply valid_rnd_N|exact H|apply valid_rnd_N|exact H]. Qed.
Lemma rd_le t x y : x <= y -> rd t x <= rd t y.
Proof. destruct t; apply round_le; try apply valid_rnd_N; apply FLT_exp_valid; unfold Prec_gt_0; lia. Qed.
Lemma rd_0 t : rd t 0 = 0.
Proof. destruct t; apply round_0, valid_rnd_N. Qed.
Lemma rd_pos t x : 0 <= x -> 0 <= rd t x.
Proof. intros H. rewrite <- (rd_0 t). apply rd_le, H. Qed.
Lemma wider t x : number t x -> number F64 x.
Proof.
  destruct t; [|auto]. intros H. unfold number in *. apply generic_inclusion_mag with (fexp1 := FLT_exp (-149) 24); [|exact H].
  intros _. unfold FLT_exp. lia.
Qed.
Lemma rd_rel t x : / 2 ^ 126 <= x -> Rabs (rd t x - x) <= ulp_of t * x.
Proof.
  intros H. assert (P : 0 < x). { eapply Rlt_le_trans; [|exact H]. apply Rinv_0_lt_compat, pow_lt. lra. }
  assert (B : bpow radix2 (-126) = / 2 ^ 126).
  { change (-126)%Z with (- (126))%Z. rewrite bpow_opp. f_equal. change (bpow radix2 126) with (IZR (Z.pow_pos 2 126)). rewrite Zpower_pos_powerRZ. reflexivity. }
  rewrite <- B in H. rewrite <- (Rabs_right x) at 3 by lra. destruct t; cbn [rd ulp_of].
  - replace (/ 2 ^ 24) with (/ 2 * bpow radix2 (-24 + 1)).
    + apply relative_error_N_FLT; [lia|]. rewrite Rabs_right by lra. exact H.
    + change (-24 + 1)%Z with (-23)%Z. change (bpow radix2 (-23)) with (/ IZR (Z.pow_pos 2 23)). rewrite <- Rinv_mult. f_equal. cbn; lra.
  - replace (/ 2 ^ 53) with (/ 2 * bpow radix2 (-53 + 1)).
    + apply relative_error_N_FLT; [lia|]. rewrite Rabs_right by lra. eapply Rle_trans; [|exact H]. apply bpow_le. lia.
    + change (-53 + 1)%Z with (-52)%Z. change (bpow radix2 (-52)) with (/ IZR (Z.pow_pos 2 52)). rewrite <- Rinv_mult. f_equal. cbn; lra.
Qed.
Lemma ulp_small t : 0 < ulp_of t <= / 2 ^ 24.
Proof. destruct t; cbn [ulp_of]; split; try (apply Rinv_0_lt_compat, pow_lt; lra); lra. Qed.
Lemma ulp_le s t : s = t \/ s = F64 -> ulp_of s <= ulp_of t.
Proof. intros [->| ->]; [lra|]. destruct t; cbn [ulp_of]; lra. Qed.
(** two-sided, in the coarser of the two types *)
Lemma rd_in s t x : s = t \/ s = F64 -> / 2 ^ 126 <= x -> (1 - ulp_of t) * x <= rd s x <= (1 + ulp_of t) * x.
Proof.
  intros ST H. pose proof (rd_rel s x H) as E. apply Rabs_le_iff in E. pose proof (ulp_le s t ST) as L.
  assert (P : 0 < x). { eapply Rlt_le_trans; [|exact H]. apply Rinv_0_lt_compat, pow_lt. lra. }
  assert (ulp_of s * x <= ulp_of t * x) by (apply Rmult_le_compat_r; lra). lra.
Qed.

(** shapes *)
Lemma convert_shape_f t u vp : shape_eq (convert_units_f t u vp) vp.
Proof. destruct u; repeat split. Qed.
Lemma prepare_shape_f t o vp vp1 : prepare_vp_f t o vp = SzOk vp1 -> shape_eq vp1 vp.
Proof.
  unfold prepare_vp_f, replace_water_f. intros H. apply shape_eq_trans with (convert_units_f t (o_units o) vp); [|apply convert_shape_f].
  destruct (water_trigger_f _ _); [|injection H as <-; apply shape_eq_refl]. destruct (o_vp_water o) as [x|]; [|discriminate].
  destruct (_ || _); [discriminate|]. injection H as <-. repeat split.
Qed.
Lemma wave_shape_f t vp wl fr a : wavelength_sizing_f t vp wl fr = SzOk a -> shape_eq a vp.
Proof. unfold wavelength_sizing_f. destruct (Reqb wl 0); [intros H; injection H as <-; repeat split|]. destruct (Rltb wl 0); [discriminate|]. destruct (Rltb fr 0); [discriminate|]. destruct (Reqb _ 0); [discriminate|]. intros H; injection H as <-; repeat split. Qed.

Section F.
Variable ufilter : garr -> garr.
Variable ramp : nat -> nat -> nat -> R -> garr -> garr.

Lemma initial_shape_f t o vp a : initial_size_f ufilter t o vp = SzOk a -> shape_eq a vp.
Proof.
  unfold initial_size_f. destruct (_ || _); intros H; [|injection H as <-; repeat split].
  apply sbind_ok in H. destruct H as (x & H1 & H). apply sbind_ok in H. destruct H as (y & H2 & H). injection H as <-.
  apply wave_shape_f in H1. exact H1.
Qed.
Lemma n99999 t : number t 99999.
Proof.
  destruct t; cbn [number]; (apply generic_format_FLT; exists (Float radix2 99999 0); [unfold F2R; cbn [Fnum Fexp]; change (bpow radix2 0) with 1; lra|cbn [Fnum]; reflexivity|cbn [Fexp]; lia]).
Qed.
Lemma min_number t x y : number t x -> number t y -> number t (Rmin x y).
Proof. intros. unfold Rmin. destruct (Rle_dec x y); assumption. Qed.
Lemma initial_number t o vp a : number F64 (o_hmin o) -> initial_size_f ufilter t o vp = SzOk a -> forall i j k, number (size_type t o) (av a i j k).
Proof.
  intros Hh. unfold initial_size_f, size_type. destruct (_ || _); intros H i j k; [|injection H as <-; exact Hh].
  apply sbind_ok in H. destruct H as (x & H1 & H). apply sbind_ok in H. destruct H as (y & H2 & H). injection H as <-. cbn [av amap2]. apply min_number.
  - unfold wavelength_sizing_f in H1. destruct (Reqb (o_wl o) 0); [injection H1 as <-; apply n99999|]. destruct (Rltb _ 0); [discriminate|]. destruct (Rltb _ 0); [discriminate|].
    destruct (Reqb _ 0); [discriminate|]. injection H1 as <-. apply rd_number.
  - unfold gradient_sizing_f in H2. destruct (Reqb (o_grad o) 0); [injection H2 as <-; apply n99999|]. destruct (Rltb _ 0); [discriminate|].
    unfold gradient_of_variance_f in H2. destruct (Reqb _ 0); [discriminate|]. injection H2 as <-. apply rd_number.
Qed.
Lemma clamp_clamp s lo hi a : clamp_f s lo hi a = clamp (rd s lo) (rd s hi) a.
Proof. reflexivity. Qed.
Lemma clamp_number s lo hi a : (forall i j k, number s (av a i j k)) -> forall i j k, number s (av (clamp_f s lo hi a) i j k).
Proof.
  intros H i j k. cbn [clamp_f amap av]. destruct (Rltb (av a i j k) (rd s lo)), (Rgtb _ (rd s hi)); try apply rd_number; apply H.
Qed.
Lemma courant_shape_f t s vp a cr dt so a' : shape_eq a vp -> courant_f t s vp a cr dt so = SzOk a' -> shape_eq a' a.
Proof.
  intros S. unfold courant_f. destruct (_ || _); [intros H; injection H as <-; apply shape_eq_refl|]. destruct (Rltb cr 0); [discriminate|].
  destruct (Rltb dt 0); [discriminate|]. destruct (Rltb so 1); [discriminate|]. destruct (existsb _ _); [discriminate|]. intros H. injection H as <-.
  apply shape_eq_sym. eapply shape_eq_trans; [exact S|]. repeat split.
Qed.
Lemma courant_off_f t s vp a cr dt so : dt = 0 \/ cr = 0 \/ so = 0 -> courant_f t s vp a cr dt so = SzOk a.
Proof.
  intros H. unfold courant_f. assert ((Reqb cr 0 || Reqb dt 0 || Reqb so 0)%bool = true) as ->; [|reflexivity].
  rewrite !orb_true_iff, !Reqb_true. tauto.
Qed.
Lemma gradation_shape_f a grade elen a' : gradation_f a grade elen = SzOk a' -> shape_eq a' a.
Proof.
  unfold gradation_f. destruct (Reqb grade 0); [intros H; injection H as <-; apply shape_eq_refl|].
  destruct (Rltb grade 0); [discriminate|]. destruct (limgrad _ _ _ _ _ _ _ _); [|discriminate]. intros H. injection H as <-. repeat split.
Qed.
Lemma gradation_bounds_f a grade elen a' lo : int_grid a -> 0 <= elen -> 0 <= lo ->
  (forall i j k, inr a i j k -> lo <= av a i j k /\ number F64 (av a i j k)) -> gradation_f a grade elen = SzOk a' ->
  forall i j k, inr a i j k -> lo <= av a' i j k <= av a i j k.
Proof.
  intros Hg He Hlo Hlow H i j k Hin. unfold gradation_f in H.
  destruct (Reqb grade 0) eqn:E1; [injection H as <-; destruct (Hlow i j k Hin); lra|]. apply Reqb_false in E1.
  destruct (Rltb grade 0) eqn:E2; [discriminate|]. apply Rltb_false in E2.
  destruct (limgrad rnd64 _ _ _ _ _ _ _) as [out|] eqn:EL; [|discriminate]. injection H as <-.
  destruct (refines_only rnd64 _ rnd64_is_rounding (n0 a) (n1 a) (n2 a) elen grade max_sweeps (flattenF a) (int_grid_valid a Hg) (flattenF_length a)) as (o & Eo & HL & Hdec & Hmin); try assumption.
  - apply List.Forall_forall. apply (flattenF_forall a). intros. apply Hlow; assumption.
  - apply (flattenF_forall a (fun x => 0 <= x)). intros i' j' k' H. destruct (Hlow i' j' k' H). lra.
  - rewrite EL in Eo. injection Eo as <-. unfold reshapeF; cbn [av].
    specialize (Hdec (i + n0 a * (j + n1 a * k))%nat). rewrite nth_flattenF in Hdec by exact Hin.
    split; [|exact Hdec].
    assert (Hm := Hmin _ (is_min_min_list _ (flattenF_nonempty a (int_grid_pos a Hg)))).
    apply Rle_trans with (min_list (flattenF a)).
    + apply (flattenF_forall a (fun x => lo <= x)); [intros; apply Hlow; assumption|]. apply min_list_in. apply flattenF_nonempty, int_grid_pos, Hg.
    + apply Hm. apply nth_In. rewrite HL, flattenF_length. destruct Hin as (Hi & Hj & Hk).
      assert (j + n1 a * k < n1 a * n2 a)%nat by nia. nia.
Qed.
Lemma get_sizing_inv_f t o b vp a4 vp4 b4 : get_sizing_f ufilter ramp t o b vp = SzOk (a4, vp4, b4) ->
  exists vp1 a0 a2 a3,
    prepare_vp_f t o vp = SzOk vp1 /\ (length b = 4 \/ length b = 6)%nat /\
    initial_size_f ufilter t o vp1 = SzOk a0 /\
    courant_f t (size_type t o) vp1 (clamp_f (size_type t o) (o_hmin o) (o_hmax o) a0) (o_cr_max o) (o_dt o) (o_space_order o) = SzOk a2 /\
    gradation_f a2 (o_grade o) (width_f (bget b 0) (bget b 1) (n0 vp1)) = SzOk a3 /\
    domain_pad_f ramp a3 vp1 b (o_pad_style o) (o_domain_pad o) = SzOk (a4, vp4, b4) /\
    shape_eq vp1 vp /\ shape_eq a0 vp /\ shape_eq a2 vp /\ shape_eq a3 vp.
Proof.
  intros H. unfold get_sizing_f in H. apply sbind_ok in H. destruct H as (vp1 & H1 & H).
  unfold bbox_dim in H.
  assert (Hb : (length b = 4 \/ length b = 6)%nat).
  { destruct (Nat.eqb_spec (length b) 4); [auto|]. destruct (Nat.eqb_spec (length b) 6); [auto|discriminate]. }
  destruct (if Nat.eqb (length b) 4 then _ else _) in H; [|discriminate].
  apply sbind_ok in H. destruct H as (a0 & H2 & H).
  apply sbind_ok in H. destruct H as (a2 & H3 & H).
  apply sbind_ok in H. destruct H as (a3 & H4 & H).
  exists vp1, a0, a2, a3.
  assert (S1 : shape_eq vp1 vp) by (eapply prepare_shape_f; eauto).
  assert (S0 : shape_eq a0 vp1) by (eapply initial_shape_f; eauto).
  assert (S2 : shape_eq a2 (clamp_f (size_type t o) (o_hmin o) (o_hmax o) a0)).
  { eapply courant_shape_f; [|exact H3]. eapply shape_eq_trans; [apply clamp_shape|exact S0]. }
  assert (S2' : shape_eq a2 vp).
  { eapply shape_eq_trans; [exact S2|]. eapply shape_eq_trans; [apply clamp_shape|]. eapply shape_eq_trans; eauto. }
  repeat (split; [assumption|]).
  split; [eapply shape_eq_trans; eauto|]. split; [exact S2'|].
  eapply shape_eq_trans; [eapply gradation_shape_f; exact H4|exact S2'].
Qed.
Lemma pad_f_is st p0 p1 p2 ext a : st <> PadLinearRamp -> pad_it_f ramp st p0 p1 p2 ext a = pad_it st p0 p1 p2 ext a.
Proof. destruct st; intros H; try reflexivity. congruence. Qed.
Lemma domain_pad_bounds_f a vp b st pad a' vp' b' lo hi : st <> PadLinearRamp \/ pad = 0 -> positive_shape a ->
  domain_pad_f ramp a vp b st pad = SzOk (a', vp', b') ->
  (forall i j k, inr a i j k -> lo <= av a i j k <= hi) ->
  forall i j k, inr a' i j k -> lo <= av a' i j k <= hi.
Proof.
  intros St Hp H Hb. unfold domain_pad_f in H. destruct (Rltb pad 0); [discriminate|].
  destruct (Rgtb pad 0) eqn:G; [|injection H as <- <- <-; exact Hb].
  destruct St as [St| ->]; [|unfold Rgtb in G; rewrite (proj2 (Rltb_false 0 0)) in G by lra; discriminate].
  destruct (pad_counts_f vp b pad) as [[p0 p1] p2].
  apply sbind_ok in H. destruct H as (x & Hx & H). apply sbind_ok in H. destruct H as (y & Hy & H).
  injection H as <- <- <-. rewrite pad_f_is in Hx by exact St. eapply pad_it_bounds; eauto.
  destruct (amax_attained a Hp) as (i & j & k & Hin & <-). apply Hb. exact Hin.
Qed.
Definition pad_of_f (o : opts) (b : bbox) (vp : garr) : nat * nat * nat :=
  if Rgtb (o_domain_pad o) 0 then pad_counts_f vp b (o_domain_pad o) else (0, 0, 0)%nat.
Lemma domain_pad_inner_f a vp b st pad a' vp' b' p0 p1 p2 i j k : st <> PadLinearRamp \/ pad = 0 ->
  domain_pad_f ramp a vp b st pad = SzOk (a', vp', b') ->
  (if Rgtb pad 0 then pad_counts_f vp b pad else (0, 0, 0)%nat) = (p0, p1, p2) ->
  inr a i j k -> av a' (p0 + i)%nat (p1 + j)%nat (p2 + k)%nat = av a i j k.
Proof.
  intros St H Hp Hin. unfold domain_pad_f in H. destruct (Rltb pad 0); [discriminate|].
  destruct (Rgtb pad 0) eqn:G.
  - destruct St as [St| ->]; [|unfold Rgtb in G; rewrite (proj2 (Rltb_false 0 0)) in G by lra; discriminate].
    destruct (pad_counts_f vp b pad) as [[q0 q1] q2]. injection Hp as -> -> ->.
    apply sbind_ok in H. destruct H as (x & Hx & H). apply sbind_ok in H. destruct H as (y & Hy & H).
    injection H as <- <- <-. rewrite pad_f_is in Hx by exact St. eapply pad_it_inner; eauto.
  - injection H as <- <- <-. injection Hp as <- <- <-. reflexivity.
Qed.
Lemma width_pos lo hi n : (0 < n)%nat -> lo <= hi -> 0 <= width_f lo hi n.
Proof.
  intros N L. unfold width_f. apply (rd_pos F64). unfold Rdiv. apply Rmult_le_pos; [apply (rd_pos F64); lra|]. apply Rlt_le, Rinv_0_lt_compat, lt_0_INR, N.
Qed.

Lemma sizes_in_range_f t o b vp a4 vp4 b4 :
  int_grid vp -> bget b 0 <= bget b 1 -> 0 <= o_hmin o <= o_hmax o -> number F64 (o_hmin o) ->
  (o_dt o = 0 \/ o_cr_max o = 0 \/ o_space_order o = 0) -> (o_pad_style o <> PadLinearRamp \/ o_domain_pad o = 0) ->
  get_sizing_f ufilter ramp t o b vp = SzOk (a4, vp4, b4) ->
  forall i j k, inr a4 i j k -> rd (size_type t o) (o_hmin o) <= av a4 i j k <= rd (size_type t o) (o_hmax o).
Proof.
  intros Hg Hb Hh Nh Hdt St H. apply get_sizing_inv_f in H.
  destruct H as (vp1 & a0 & a2 & a3 & H1 & _ & H2 & H3 & H4 & H5 & S1 & S0 & S2 & S3).
  rewrite courant_off_f in H3 by tauto. injection H3 as <-. set (s := size_type t o) in *.
  assert (LH : rd s (o_hmin o) <= rd s (o_hmax o)) by (apply rd_le; lra).
  eapply domain_pad_bounds_f; [exact St| |exact H5|].
  - apply int_grid_pos. eapply shape_int_grid; [apply shape_eq_sym; exact S3|exact Hg].
  - intros i j k Hin.
    assert (Hg2 : int_grid (clamp_f s (o_hmin o) (o_hmax o) a0)) by (eapply shape_int_grid; [apply shape_eq_sym; exact S2|exact Hg]).
    assert (Hin2 : inr (clamp_f s (o_hmin o) (o_hmax o) a0) i j k).
    { eapply shape_eq_inr; [|exact Hin]. eapply shape_eq_trans; [exact S3|apply shape_eq_sym; exact S2]. }
    assert (HE : 0 <= width_f (bget b 0) (bget b 1) (n0 vp1)).
    { apply width_pos; [|exact Hb]. destruct S1 as (_ & -> & _). apply Hg. }
    assert (HL : forall i j k, inr (clamp_f s (o_hmin o) (o_hmax o) a0) i j k -> rd s (o_hmin o) <= av (clamp_f s (o_hmin o) (o_hmax o) a0) i j k /\ number F64 (av (clamp_f s (o_hmin o) (o_hmax o) a0) i j k)).
    { intros i' j' k' _. split; [apply clamp_bounds; exact LH|]. apply (wider s). apply clamp_number, (initial_number t o vp1 a0 Nh H2). }
    destruct (gradation_bounds_f _ _ _ _ (rd s (o_hmin o)) Hg2 HE ltac:(apply rd_pos; lra) HL H4 i j k Hin2) as [B1 B2].
    split; [exact B1|]. eapply Rle_trans; [exact B2|]. apply clamp_bounds. exact LH.
Qed.

(** below the clamped wavelength size *)
Lemma wave_f t o b vp vp1 a4 vp4 b4 p0 p1 p2 :
  int_grid vp -> bget b 0 <= bget b 1 -> 0 <= o_hmin o <= o_hmax o -> number F64 (o_hmin o) ->
  (o_dt o = 0 \/ o_cr_max o = 0 \/ o_space_order o = 0) -> (o_pad_style o <> PadLinearRamp \/ o_domain_pad o = 0) -> 0 < o_wl o ->
  prepare_vp_f t o vp = SzOk vp1 -> pad_of_f o b vp = (p0, p1, p2) ->
  get_sizing_f ufilter ramp t o b vp = SzOk (a4, vp4, b4) ->
  forall i j k, inr vp i j k ->
  av a4 (p0 + i)%nat (p1 + j)%nat (p2 + k)%nat <= Rmax (rd t (o_hmin o)) (rd t (av vp1 i j k / wave_divisor t (o_freq o) (o_wl o))).
Proof.
  intros Hg Hb Hh Nh Hdt St Hwl Hprep Hpad H i j k Hin. apply get_sizing_inv_f in H.
  destruct H as (vp1' & a0 & a2 & a3 & H1 & _ & H2 & H3 & H4 & H5 & S1 & S0 & S2 & S3).
  rewrite Hprep in H1. injection H1 as <-. rewrite courant_off_f in H3 by tauto. injection H3 as <-.
  assert (W : (Rgtb (o_wl o) 0 || Rgtb (o_grad o) 0)%bool = true). { unfold Rgtb. rewrite (proj2 (Rltb_true 0 (o_wl o)) Hwl). reflexivity. }
  assert (size_type t o = t) as ES by (unfold size_type; rewrite W; reflexivity). rewrite ES in *.
  assert (LH : rd t (o_hmin o) <= rd t (o_hmax o)) by (apply rd_le; lra).
  assert (Hg2 : int_grid (clamp_f t (o_hmin o) (o_hmax o) a0)) by (eapply shape_int_grid; [apply shape_eq_sym; exact S2|exact Hg]).
  assert (Hin2 : inr (clamp_f t (o_hmin o) (o_hmax o) a0) i j k) by (eapply shape_eq_inr; [apply shape_eq_sym; exact S2|exact Hin]).
  assert (HE : 0 <= width_f (bget b 0) (bget b 1) (n0 vp1)).
  { apply width_pos; [|exact Hb]. destruct S1 as (_ & -> & _). apply Hg. }
  assert (Epad : (if Rgtb (o_domain_pad o) 0 then pad_counts_f vp1 b (o_domain_pad o) else (0, 0, 0)%nat) = (p0, p1, p2)).
  { rewrite <- Hpad. unfold pad_of_f, pad_counts_f. destruct S1 as (-> & -> & -> & ->). reflexivity. }
  assert (Hin3 : inr a3 i j k) by (eapply shape_eq_inr; [apply shape_eq_sym; exact S3|exact Hin]).
  rewrite (domain_pad_inner_f _ _ _ _ _ _ _ _ p0 p1 p2 i j k St H5 Epad Hin3).
  assert (HL : forall i j k, inr (clamp_f t (o_hmin o) (o_hmax o) a0) i j k -> rd t (o_hmin o) <= av (clamp_f t (o_hmin o) (o_hmax o) a0) i j k /\ number F64 (av (clamp_f t (o_hmin o) (o_hmax o) a0) i j k)).
  { intros i' j' k' _. split; [apply clamp_bounds; exact LH|]. apply (wider t). apply clamp_number. intros i2 j2 k2.
    pose proof (initial_number t o vp1 a0 Nh H2 i2 j2 k2) as N. rewrite ES in N. exact N. }
  destruct (gradation_bounds_f _ _ _ _ (rd t (o_hmin o)) Hg2 HE ltac:(apply rd_pos; lra) HL H4 i j k Hin2) as [_ B2].
  - eapply Rle_trans; [exact B2|]. rewrite clamp_clamp. eapply Rle_trans; [apply clamp_le_raw; exact LH|].
    apply Rle_max_compat_l. unfold initial_size_f in H2. rewrite W in H2.
    apply sbind_ok in H2. destruct H2 as (x & X & H2). apply sbind_ok in H2. destruct H2 as (y & Y & H2). injection H2 as <-. cbn [av amap2].
    eapply Rle_trans; [apply Rmin_l|]. unfold wavelength_sizing_f in X. rewrite (proj2 (Reqb_false (o_wl o) 0)) in X by lra.
    destruct (Rltb _ 0); [discriminate|]. destruct (Rltb _ 0); [discriminate|]. destruct (Reqb _ 0); [discriminate|]. injection X as <-. apply Rle_refl.
Qed.
End F.

(** rounding as a factor *)
Lemma rd_factor s t x : s = t \/ s = F64 -> / 2 ^ 126 <= x -> exists f, 1 - ulp_of t <= f <= 1 + ulp_of t /\ rd s x = f * x.
Proof.
  intros ST H. assert (P : 0 < x). { eapply Rlt_le_trans; [|exact H]. apply Rinv_0_lt_compat, pow_lt. lra. }
  destruct (rd_in s t x ST H) as (L & U). exists (rd s x / x). split; [|field; lra].
  split; apply Rmult_le_reg_r with x; try lra; unfold Rdiv; rewrite Rmult_assoc, Rinv_l, Rmult_1_r by lra; assumption.
Qed.
Lemma tiny_le x n : (n <= 126)%nat -> / 2 ^ n <= x -> / 2 ^ 126 <= x.
Proof. intros N H. eapply Rle_trans; [|exact H]. apply Rinv_le_contravar; [apply pow_lt; lra|]. apply Rle_pow; [lra|exact N]. Qed.
Lemma factor3 u a b c : 0 < u <= / 2 ^ 24 -> 1 - u <= a <= 1 + u -> 1 - u <= b <= 1 + u -> 1 - u <= c <= 1 + u -> 1 - 31 / 10 * u <= a * b * c <= 1 + 31 / 10 * u.
Proof.
  intros U A B C. assert (0 < u < 1 / 1000000) as U' by lra. clear U.
  assert (AB : 1 - 2001 / 1000 * u <= a * b <= 1 + 2001 / 1000 * u) by (split; nra).
  split; nra.
Qed.
Lemma factor2 u a b : 0 < u <= / 2 ^ 24 -> 1 - u <= a <= 1 + u -> 1 - u <= b <= 1 + u -> 1 - 201 / 100 * u <= a * b <= 1 + 201 / 100 * u.
Proof.
  intros U A B. assert (0 < u < 1 / 1000000) as U' by lra. clear U. split; nra.
Qed.
Lemma half_double u f x lo hi : 0 < u <= / 2 ^ 24 -> 1 - u <= f <= 1 + u -> 0 <= lo -> lo <= x <= hi -> lo / 2 <= f * x <= 2 * hi.
Proof.
  intros U F L X. split; [replace (lo / 2) with (/ 2 * lo) by lra|]; apply Rmult_le_compat; lra.
Qed.
(** the factors between the Courant number the code compares and the one a user computes *)
Lemma courant_factors (t s : dtype) v dt x d cr so : s = t \/ s = F64 -> usual v -> usual dt -> usual x -> usual cr -> 1 <= so <= 2 ^ 20 -> 1 <= d <= 4 ->
  exists f1 f2 f3 f4 f5 f6 f7 f8 f9 f10 : R, let u := ulp_of t in
    (1 - u <= f1 <= 1 + u /\ 1 - u <= f2 <= 1 + u /\ 1 - u <= f3 <= 1 + u /\ 1 - u <= f4 <= 1 + u /\ 1 - u <= f5 <= 1 + u /\ 1 - u <= f6 <= 1 + u /\ 1 - u <= f7 <= 1 + u /\ 1 - u <= f8 <= 1 + u /\ 1 - u <= f9 <= 1 + u /\ 1 - u <= f10 <= 1 + u) /\
    rd s (rd t (v * rd t dt) / rd s (d * x)) = f6 * (f1 * f2 * (v * dt)) / (f5 * (d * x)) /\
    rd s (limit_f d cr so) = f7 * (f4 * (cr / (d * so)) / f3) /\
    rd t (rd t (v * rd t dt) / rd t (rnd64 (d * limit_f d cr so))) = f9 * (f1 * f2 * (v * dt)) / (f8 * (f10 * (d * (f4 * (cr / (d * so)) / f3)))).
Proof.
  intros ST V D X C SO DD. pose proof (ulp_small t) as U. unfold usual in *.
  destruct (rd_factor t t dt ltac:(auto)) as (f1 & F1 & E1); [apply (tiny_le _ 20); [lia|lra]|].
  assert (P1 : / 2 ^ 21 <= rd t dt) by (rewrite E1; pose proof (half_double _ f1 (dt) (/ 2 ^ 20) (2 ^ 20) U F1 ltac:(lra) ltac:(lra)); lra).
  assert (P1' : / 2 ^ 41 <= v * rd t dt) by (replace (/ 2 ^ 41) with (/ 2 ^ 20 * / 2 ^ 21) by lra; apply Rmult_le_compat; lra).
  destruct (rd_factor t t (v * rd t dt) ltac:(auto)) as (f2 & F2 & E2); [apply (tiny_le _ 41); [lia|exact P1']|].
  assert (P2 : / 2 ^ 42 <= rd t (v * rd t dt)) by (rewrite E2; pose proof (half_double _ f2 (v * rd t dt) (/ 2 ^ 41) (v * rd t dt) U F2 ltac:(lra) ltac:(lra)); lra).
  assert (Q2 : / 2 ^ 20 <= d * x <= 2 ^ 22) by nra.
  destruct (rd_factor s t (d * x) ST) as (f5 & F5 & E5); [apply (tiny_le _ 20); [lia|lra]|].
  assert (P5 : / 2 ^ 21 <= rd s (d * x) <= 2 ^ 23) by (rewrite E5; pose proof (half_double _ f5 (d * x) (/ 2 ^ 20) (2 ^ 22) U F5 ltac:(lra) ltac:(lra)); lra).
  assert (P6 : / 2 ^ 65 <= rd t (v * rd t dt) / rd s (d * x)).
  { replace (/ 2 ^ 65) with (/ 2 ^ 42 * / 2 ^ 23) by lra. unfold Rdiv. apply Rmult_le_compat; try lra. apply Rinv_le_contravar; lra. }
  destruct (rd_factor s t (rd t (v * rd t dt) / rd s (d * x)) ST) as (f6 & F6 & E6); [apply (tiny_le _ 65); [lia|exact P6]|].
  assert (Q3 : 1 <= d * so <= 2 ^ 22) by nra.
  destruct (rd_factor F64 t (d * so) ltac:(auto)) as (f3 & F3 & E3); [apply (tiny_le _ 1); [lia|lra]|].
  cbn [rd] in E3.
  assert (P3 : / 2 <= rnd64 (d * so) <= 2 ^ 23) by (rewrite E3; pose proof (half_double _ f3 (d * so) (1) (2 ^ 22) U F3 ltac:(lra) ltac:(lra)); lra).
  assert (P4 : / 2 ^ 43 <= cr / rnd64 (d * so) <= 2 ^ 21).
  { split.
    - replace (/ 2 ^ 43) with (/ 2 ^ 20 * / 2 ^ 23) by lra. unfold Rdiv. apply Rmult_le_compat; try lra. apply Rinv_le_contravar; lra.
    - replace (2 ^ 21) with (2 ^ 20 * 2) by lra. unfold Rdiv. apply Rmult_le_compat; try lra; [apply Rlt_le, Rinv_0_lt_compat; lra|]. rewrite <- (Rinv_inv 2). apply Rinv_le_contravar; lra. }
  destruct (rd_factor F64 t (cr / rnd64 (d * so)) ltac:(auto)) as (f4 & F4 & E4); [apply (tiny_le _ 43); [lia|lra]|].
  cbn [rd] in E4.
  assert (P4' : / 2 ^ 44 <= limit_f d cr so <= 2 ^ 22) by (unfold limit_f; rewrite E4; pose proof (half_double _ f4 (cr / rnd64 (d * so)) (/ 2 ^ 43) (2 ^ 21) U F4 ltac:(lra) ltac:(lra)); lra).
  destruct (rd_factor s t (limit_f d cr so) ST) as (f7 & F7 & E7); [apply (tiny_le _ 44); [lia|lra]|].
  assert (P10 : / 2 ^ 44 <= d * limit_f d cr so <= 2 ^ 24) by nra.
  destruct (rd_factor F64 t (d * limit_f d cr so) ltac:(auto)) as (f10 & F10 & E10); [apply (tiny_le _ 44); [lia|lra]|].
  cbn [rd] in E10.
  assert (P8' : / 2 ^ 45 <= rnd64 (d * limit_f d cr so) <= 2 ^ 25) by (rewrite E10; pose proof (half_double _ f10 (d * limit_f d cr so) (/ 2 ^ 44) (2 ^ 24) U F10 ltac:(lra) ltac:(lra)); lra).
  destruct (rd_factor t t (rnd64 (d * limit_f d cr so)) ltac:(auto)) as (f8 & F8 & E8); [apply (tiny_le _ 45); [lia|lra]|].
  assert (P8 : / 2 ^ 46 <= rd t (rnd64 (d * limit_f d cr so)) <= 2 ^ 26) by (rewrite E8; pose proof (half_double _ f8 (rnd64 (d * limit_f d cr so)) (/ 2 ^ 45) (2 ^ 25) U F8 ltac:(lra) ltac:(lra)); lra).
  assert (P9 : / 2 ^ 68 <= rd t (v * rd t dt) / rd t (rnd64 (d * limit_f d cr so))).
  { replace (/ 2 ^ 68) with (/ 2 ^ 42 * / 2 ^ 26) by lra. unfold Rdiv. apply Rmult_le_compat; try lra. apply Rinv_le_contravar; lra. }
  destruct (rd_factor t t (rd t (v * rd t dt) / rd t (rnd64 (d * limit_f d cr so))) ltac:(auto)) as (f9 & F9 & E9); [apply (tiny_le _ 68); [lia|exact P9]|].
  exists f1, f2, f3, f4, f5, f6, f7, f8, f9, f10. cbv zeta.
  split; [repeat split; tauto || lra|].
  assert (EL : limit_f d cr so = f4 * (cr / (d * so)) / f3).
  { unfold limit_f. rewrite E4, E3. field. repeat split; lra. }
  split; [|split].
  - rewrite E6, E2, E1, E5. unfold Rdiv. ring.
  - rewrite E7, EL. reflexivity.
  - rewrite E9, E8, E10, E2, E1, EL. unfold Rdiv. ring.
Qed.

(** quotients of few factors *)
Lemma ratio_le u A B : 0 < u <= / 2 ^ 24 -> A <= 1 + 31 / 10 * u -> 1 - 42 / 10 * u <= B -> A <= (1 + 8 * u) * B.
Proof.
  intros U HA HB. assert (0 < u < 1 / 1000000) by lra. apply Rle_trans with ((1 + 8 * u) * (1 - 42 / 10 * u)); [nra|].
  apply Rmult_le_compat_l; lra.
Qed.
Lemma factor4 u a b c d : 0 < u <= / 2 ^ 24 -> 1 - u <= a <= 1 + u -> 1 - u <= b <= 1 + u -> 1 - u <= c <= 1 + u -> 1 - u <= d <= 1 + u ->
  1 - 42 / 10 * u <= a * b * c * d <= 1 + 42 / 10 * u.
Proof.
  intros U A B C D. pose proof (factor3 u a b c U A B C) as F. assert (0 < u < 1 / 1000000) as U' by lra. clear U.
  set (p := a * b * c) in *. clearbody p. split; nra.
Qed.
Lemma div_le_iff a b c : 0 < b -> (a / b <= c <-> a <= c * b).
Proof.
  intros B. split; intros H.
  - apply (Rmult_le_compat_r b) in H; [|lra]. unfold Rdiv in H. rewrite Rmult_assoc, Rinv_l, Rmult_1_r in H by lra. exact H.
  - apply Rmult_le_reg_r with b; [exact B|]. unfold Rdiv. rewrite Rmult_assoc, Rinv_l, Rmult_1_r by lra. exact H.
Qed.
Lemma usual_pos x : usual x -> 0 < x.
Proof. unfold usual. intros H. lra. Qed.
Lemma courant_point_f (t s : dtype) vp a cr dt so a' i j k : s = t \/ s = F64 -> courant_f t s vp a cr dt so = SzOk a' ->
  usual cr -> usual dt -> 1 <= so <= 2 ^ 20 -> (1 <= adim vp <= 3)%nat -> usual (av vp i j k) -> usual (av a i j k) ->
  let d := INR (adim vp) in let u := ulp_of t in
  av vp i j k * dt / (d * av a' i j k) <= (1 + 8 * u) * (cr / (d * so)) /\
  (1 - 8 * u) * av a i j k <= av a' i j k /\
  (av vp i j k * dt / (d * av a i j k) <= (1 - 8 * u) * (cr / (d * so)) -> av a' i j k = av a i j k).
Proof.
  intros ST H C D SO AD V X d u. assert (DD : 1 <= d <= 4).
  { unfold d. change 1 with (INR 1). replace 4 with (INR 4) by (cbn; lra). split; apply le_INR; lia. }
  pose proof (usual_pos _ C) as PC. pose proof (usual_pos _ D) as PD. pose proof (usual_pos _ V) as PV. pose proof (usual_pos _ X) as PX.
  unfold courant_f in H. rewrite (proj2 (Reqb_false cr 0)), (proj2 (Reqb_false dt 0)), (proj2 (Reqb_false so 0)) in H by lra. cbn [orb] in H.
  rewrite (proj2 (Rltb_false cr 0)), (proj2 (Rltb_false dt 0)), (proj2 (Rltb_false so 1)) in H by lra.
  destruct (existsb _ _); [discriminate|]. injection H as <-. cbn [av amap2].
  set (v := av vp i j k) in *. set (x := av a i j k) in *. fold d.
  pose proof (ulp_small t) as U. fold u in U.
  destruct (courant_factors t s v dt x d cr so ST V D X C SO DD) as (f1 & f2 & f3 & f4 & f5 & f6 & f7 & f8 & f9 & f10 & (F1 & F2 & F3 & F4 & F5 & F6 & F7 & F8 & F9 & F10) & E1 & E2 & E3).
  fold u in F1, F2, F3, F4, F5, F6, F7, F8, F9, F10. rewrite E1, E2, E3. clear E1 E2 E3. set (L := cr / (d * so)). set (X0 := v * dt).
  assert (PL : 0 < L) by (unfold L; apply Rdiv_lt_0_compat; [lra|apply Rmult_lt_0_compat; lra]).
  assert (PX0 : 0 < X0) by (apply Rmult_lt_0_compat; lra). clearbody L X0. clear - PL PX0 U F1 F2 F3 F4 F5 F6 F7 F8 F9 F10 DD PX.
  assert (U1 : u < / 2) by lra.
  assert (PDX : 0 < d * x) by (apply Rmult_lt_0_compat; lra).
  assert (POS : 0 < f1 /\ 0 < f2 /\ 0 < f3 /\ 0 < f4 /\ 0 < f5 /\ 0 < f6 /\ 0 < f7 /\ 0 < f8 /\ 0 < f9 /\ 0 < f10) by lra.
  destruct POS as (p1 & p2 & p3 & p4 & p5 & p6 & p7 & p8 & p9 & p10).
  pose proof (Rmult_lt_0_compat _ _ p1 p2) as p12.
  unfold Rgtb. destruct (Rltb (f7 * (f4 * L / f3)) (f6 * (f1 * f2 * X0) / (f5 * (d * x)))) eqn:E.
  - apply Rltb_true in E.
    assert (E' : f7 * f4 * f5 * (L * (d * x)) < f6 * f1 * f2 * f3 * X0).
    { apply (Rmult_lt_compat_r (f3 * (f5 * (d * x)))) in E; [|apply Rmult_lt_0_compat; [lra|apply Rmult_lt_0_compat; lra]].
      replace (f7 * (f4 * L / f3) * (f3 * (f5 * (d * x)))) with (f7 * f4 * f5 * (L * (d * x))) in E by (field; lra).
      replace (f6 * (f1 * f2 * X0) / (f5 * (d * x)) * (f3 * (f5 * (d * x)))) with (f6 * f1 * f2 * f3 * X0) in E by (field; repeat split; lra). exact E. }
    clear E. set (s' := f9 * (f1 * f2 * X0) / (f8 * (f10 * (d * (f4 * L / f3))))).
    assert (ES : s' * (f8 * f10 * f4 * (d * L)) = f9 * f1 * f2 * f3 * X0) by (unfold s'; field; repeat split; lra).
    assert (PK : 0 < f8 * f10 * f4 * (d * L)) by (repeat apply Rmult_lt_0_compat; lra).
    assert (PS : 0 < s').
    { assert (0 < s' * (f8 * f10 * f4 * (d * L))) by (rewrite ES; repeat apply Rmult_lt_0_compat; lra). apply Rmult_lt_reg_r with (f8 * f10 * f4 * (d * L)); lra. }
    clearbody s'. split; [|split].
    + apply (proj2 (div_le_iff _ _ _ (Rmult_lt_0_compat d s' ltac:(lra) PS))).
      pose proof (factor3 u f8 f10 f4 U F8 F10 F4) as A. pose proof (factor4 u f9 f1 f2 f3 U F9 F1 F2 F3) as B.
      pose proof (ratio_le u (f8 * f10 * f4) (f9 * f1 * f2 * f3) U ltac:(lra) ltac:(lra)) as R.
      set (Q := f9 * f1 * f2 * f3) in *. assert (PQ : 0 < Q) by (unfold Q; repeat apply Rmult_lt_0_compat; lra).
      assert (Q * X0 <= Q * ((1 + 8 * u) * L * (d * s'))).
      { rewrite <- ES. replace (s' * (f8 * f10 * f4 * (d * L))) with (f8 * f10 * f4 * (d * L * s')) by ring.
        replace (Q * ((1 + 8 * u) * L * (d * s'))) with ((1 + 8 * u) * Q * (d * L * s')) by ring. apply Rmult_le_compat_r; [|exact R]. apply Rlt_le. repeat apply Rmult_lt_0_compat; lra. }
      apply Rmult_le_reg_l with Q; assumption.
    + pose proof (factor3 u f7 f5 f9 U F7 F5 F9) as A. pose proof (factor3 u f8 f10 f6 U F8 F10 F6) as B.
      assert (T : (f7 * f5 * f9) * x <= (f8 * f10 * f6) * s').
      { apply Rmult_le_reg_r with (f4 * (d * L)); [repeat apply Rmult_lt_0_compat; lra|].
        replace (f8 * f10 * f6 * s' * (f4 * (d * L))) with (f6 * (s' * (f8 * f10 * f4 * (d * L)))) by ring. rewrite ES.
        replace (f7 * f5 * f9 * x * (f4 * (d * L))) with (f9 * (f7 * f4 * f5 * (L * (d * x)))) by ring.
        replace (f6 * (f9 * f1 * f2 * f3 * X0)) with (f9 * (f6 * f1 * f2 * f3 * X0)) by ring. apply Rmult_le_compat_l; lra. }
      assert ((1 - 31 / 10 * u) * x <= (1 + 31 / 10 * u) * s').
      { eapply Rle_trans; [|eapply Rle_trans; [exact T|]]; apply Rmult_le_compat_r; lra. }
      assert (0 < u < 1 / 1000000) as US by lra. clear - H US PS PX. assert ((1 + 31 / 10 * u) * ((1 - 8 * u) * x) <= (1 - 31 / 10 * u) * x).
      { replace ((1 + 31 / 10 * u) * ((1 - 8 * u) * x)) with ((1 + 31 / 10 * u) * (1 - 8 * u) * x) by ring. apply Rmult_le_compat_r; [lra|]. nra. }
      apply Rmult_le_reg_l with (1 + 31 / 10 * u); lra.
    + intros N. exfalso. apply (proj1 (div_le_iff _ _ _ PDX)) in N.
      pose proof (factor3 u f7 f4 f5 U F7 F4 F5) as A. pose proof (factor4 u f6 f1 f2 f3 U F6 F1 F2 F3) as B.
      assert (0 < u < 1 / 1000000) as US by lra.
      assert (M1 : f6 * f1 * f2 * f3 * X0 <= (1 + 42 / 10 * u) * ((1 - 8 * u) * L * (d * x))) by (apply Rmult_le_compat; try lra; repeat apply Rmult_le_pos; lra).
      assert (M2 : (1 - 31 / 10 * u) * (L * (d * x)) <= f7 * f4 * f5 * (L * (d * x))) by (apply Rmult_le_compat_r; [apply Rlt_le, Rmult_lt_0_compat; lra|lra]).
      replace ((1 + 42 / 10 * u) * ((1 - 8 * u) * L * (d * x))) with ((1 + 42 / 10 * u) * (1 - 8 * u) * (L * (d * x))) in M1 by ring.
      set (Z := L * (d * x)) in *. assert (PZ : 0 < Z) by (apply Rmult_lt_0_compat; lra). clearbody Z.
      assert ((1 + 42 / 10 * u) * (1 - 8 * u) * Z <= (1 - 31 / 10 * u) * Z) by (apply Rmult_le_compat_r; [lra|]; clear - US; nra). lra.
  - apply Rltb_false in E. split; [|split].
    + apply (proj2 (div_le_iff _ _ _ PDX)).
      assert (E' : f6 * f1 * f2 * f3 * X0 <= f7 * f4 * f5 * (L * (d * x))).
      { apply (Rmult_le_compat_r (f3 * (f5 * (d * x)))) in E; [|apply Rlt_le; apply Rmult_lt_0_compat; [lra|apply Rmult_lt_0_compat; lra]].
        replace (f7 * (f4 * L / f3) * (f3 * (f5 * (d * x)))) with (f7 * f4 * f5 * (L * (d * x))) in E by (field; lra).
        replace (f6 * (f1 * f2 * X0) / (f5 * (d * x)) * (f3 * (f5 * (d * x)))) with (f6 * f1 * f2 * f3 * X0) in E by (field; repeat split; lra). exact E. }
      pose proof (factor3 u f7 f4 f5 U F7 F4 F5) as A. pose proof (factor4 u f6 f1 f2 f3 U F6 F1 F2 F3) as B.
      pose proof (ratio_le u (f7 * f4 * f5) (f6 * f1 * f2 * f3) U ltac:(lra) ltac:(lra)) as R.
      set (Q := f6 * f1 * f2 * f3) in *. assert (PQ : 0 < Q) by (unfold Q; repeat apply Rmult_lt_0_compat; lra).
      apply Rmult_le_reg_l with Q; [exact PQ|]. eapply Rle_trans; [exact E'|].
      replace (Q * ((1 + 8 * u) * L * (d * x))) with ((1 + 8 * u) * Q * (L * (d * x))) by ring. apply Rmult_le_compat_r; [|exact R]. apply Rlt_le, Rmult_lt_0_compat; lra.
    + assert (0 <= 8 * u * x) by (apply Rmult_le_pos; lra). lra.
    + reflexivity.
Qed.

Lemma round_double emin prec x : (0 < prec)%Z -> bpow radix2 (emin + prec - 1) <= x ->
  round radix2 (FLT_exp emin prec) ZnearestE (2 * x) = 2 * round radix2 (FLT_exp emin prec) ZnearestE x.
Proof.
  intros PP H. assert (P : 0 < x) by (pose proof (bpow_gt_0 radix2 (emin + prec - 1)); lra).
  assert (M : (mag radix2 (2 * x) = mag radix2 x + 1 :> Z)%Z).
  { replace (2 * x) with (x * bpow radix2 1) by (change (bpow radix2 1) with 2; ring). apply mag_mult_bpow. lra. }
  assert (G : (emin + prec <= mag radix2 x)%Z).
  { apply mag_ge_bpow. rewrite Rabs_right by lra. exact H. }
  assert (CE : cexp radix2 (FLT_exp emin prec) (2 * x) = (cexp radix2 (FLT_exp emin prec) x + 1)%Z).
  { unfold cexp. rewrite M. unfold FLT_exp. lia. }
  unfold round, scaled_mantissa, F2R. cbn [Fnum Fexp]. rewrite CE.
  replace (- (cexp radix2 (FLT_exp emin prec) x + 1))%Z with (- cexp radix2 (FLT_exp emin prec) x + -1)%Z by ring. rewrite !bpow_plus.
  change (bpow radix2 1) with 2. change (bpow radix2 (-1)) with (/ 2).
  replace (2 * x * (bpow radix2 (- cexp radix2 (FLT_exp emin prec) x) * / 2)) with (x * bpow radix2 (- cexp radix2 (FLT_exp emin prec) x)) by field. ring.
Qed.
Lemma rd_double t x : / 2 ^ 126 <= x -> rd t (2 * x) = 2 * rd t x.
Proof.
  intros H. assert (B : bpow radix2 (-126) = / 2 ^ 126).
  { change (-126)%Z with (- (126))%Z. rewrite bpow_opp. f_equal. change (bpow radix2 126) with (IZR (Z.pow_pos 2 126)). rewrite Zpower_pos_powerRZ. reflexivity. }
  rewrite <- B in H. destruct t; apply round_double; try lia; [exact H|]. eapply Rle_trans; [|exact H]. apply bpow_le. lia.
Qed.
Lemma pow2_number t n : (n <= 100)%nat -> number t (2 ^ n) /\ number t (/ 2 ^ n).
Proof.
  intros N. assert (G : forall e, (-100 <= e <= 100)%Z -> number t (bpow radix2 e)).
  { intros e E. destruct t; apply generic_format_bpow; unfold FLT_exp; lia. }
  assert (B : 2 ^ n = bpow radix2 (Z.of_nat n)). { rewrite bpow_powerRZ. rewrite <- pow_powerRZ. reflexivity. }
  split; rewrite B; [apply G; lia|]. rewrite <- bpow_opp. apply G. lia.
Qed.
Lemma rd_usual t x : usual x -> usual (rd t x).
Proof.
  intros (L & U). destruct (pow2_number t 20 ltac:(lia)) as (N1 & N2). split; [rewrite <- (rd_id t _ N2)|rewrite <- (rd_id t _ N1)]; apply rd_le; assumption.
Qed.
Lemma limit_normal d cr so : usual cr -> 1 <= so <= 2 ^ 20 -> 1 <= d <= 4 -> / 2 ^ 45 <= limit_f d cr so.
Proof.
  intros C SO D. destruct (courant_factors F64 F64 1 1 1 d cr so (or_introl eq_refl)) as (f1 & f2 & f3 & f4 & f5 & f6 & f7 & f8 & f9 & f10 & F & _ & E & _); try assumption; try (unfold usual; lra).
  cbv zeta in F. pose proof (ulp_small F64) as U. cbn [rd] in E.
  assert (N : rnd64 (limit_f d cr so) = limit_f d cr so) by (apply (rd_id F64), (rd_number F64)). rewrite N in E. rewrite E. unfold usual in C.
  assert (/ 2 ^ 42 <= cr / (d * so)).
  { replace (/ 2 ^ 42) with (/ 2 ^ 20 * / 2 ^ 22) by lra. unfold Rdiv. apply Rmult_le_compat; try lra. apply Rinv_le_contravar; nra. }
  set (Q := cr / (d * so)) in *. clearbody Q.
  assert (/ 2 <= f7 <= 2) by lra. assert (/ 2 <= f4 <= 2) by lra. assert (0 < f3 <= 2) by lra.
  assert (/ 2 <= / f3). { apply Rinv_le_contravar; lra. }
  replace (f7 * (f4 * Q / f3)) with (f7 * f4 * / f3 * Q) by (unfold Rdiv; ring).
  assert (A1 : / 2 * / 2 <= f7 * f4) by (apply Rmult_le_compat; lra).
  assert (A2 : / 2 * / 2 * / 2 <= f7 * f4 * / f3) by (apply Rmult_le_compat; lra).
  apply Rle_trans with (/ 2 * / 2 * / 2 * / 2 ^ 42); [lra|]. apply Rmult_le_compat; lra.
Qed.

(** in two dimensions, velocities and sizes of one type: the Courant step never makes a size smaller *)
Lemma courant_2d_f (t : dtype) vp a cr dt so a' i j k : courant_f t t vp a cr dt so = SzOk a' ->
  usual cr -> usual dt -> 1 <= so <= 2 ^ 20 -> adim vp = 2%nat -> usual (av a i j k) -> number t (av a i j k) -> av a i j k <= av a' i j k.
Proof.
  intros H C D SO AD X N. pose proof (usual_pos _ C) as PC. pose proof (usual_pos _ D) as PD. pose proof (usual_pos _ X) as PX.
  unfold courant_f in H. rewrite (proj2 (Reqb_false cr 0)), (proj2 (Reqb_false dt 0)), (proj2 (Reqb_false so 0)) in H by lra. cbn [orb] in H.
  rewrite (proj2 (Rltb_false cr 0)), (proj2 (Rltb_false dt 0)), (proj2 (Rltb_false so 1)) in H by lra.
  destruct (existsb _ _); [discriminate|]. injection H as <-. cbn [av amap2]. rewrite AD. change (INR 2) with 2.
  set (x := av a i j k) in *. set (Y := rd t (av vp i j k * rd t dt)). clearbody Y.
  pose proof (limit_normal 2 cr so C SO ltac:(lra)) as LN. set (c := limit_f 2 cr so) in *.
  assert (Nc : rnd64 c = c) by (apply (rd_id F64), (rd_number F64)). clearbody c.
  assert (TC : / 2 ^ 126 <= c) by (apply (tiny_le _ 45); [lia|exact LN]).
  assert (PCC : / 2 ^ 46 <= rd t c). { destruct (rd_in t t c (or_introl eq_refl) TC) as (L1 & _). pose proof (ulp_small t). nra. }
  rewrite (rd_double t x), (rd_id t x N) by (apply (tiny_le _ 20); [lia|apply X]).
  replace (rnd64 (2 * c)) with (2 * c) by (rewrite <- Nc at 1; symmetry; apply (rd_double F64); exact TC). rewrite (rd_double t c TC).
  unfold Rgtb. destruct (Rltb _ _) eqn:E; [|apply Rle_refl]. apply Rltb_true in E.
  assert (Q : rd t c < Y / (2 * x)).
  { apply Rnot_le_lt. intros Q. apply (rd_le t) in Q. rewrite (rd_id t (rd t c)) in Q by apply rd_number. lra. }
  rewrite <- (rd_id t x N) at 1. apply rd_le.
  apply (Rmult_lt_compat_r (2 * x)) in Q; [|lra]. unfold Rdiv in Q. rewrite (Rmult_assoc Y), Rinv_l, Rmult_1_r in Q by lra.
  apply Rmult_le_reg_r with (2 * rd t c); [lra|]. unfold Rdiv. rewrite (Rmult_assoc Y), Rinv_l, Rmult_1_r by lra. lra.
Qed.
Lemma courant_number t s vp a cr dt so a' : s = t \/ s = F64 -> (forall i j k, number s (av a i j k)) -> courant_f t s vp a cr dt so = SzOk a' -> forall i j k, number F64 (av a' i j k).
Proof.
  intros ST N. unfold courant_f. destruct (_ || _); [intros H; injection H as <-; intros; apply (wider s), N|]. destruct (Rltb cr 0); [discriminate|].
  destruct (Rltb dt 0); [discriminate|]. destruct (Rltb so 1); [discriminate|]. destruct (existsb _ _); [discriminate|]. intros H i j k. injection H as <-. cbn [amap2 av].
  destruct (Rgtb _ _); [apply (wider t), rd_number|apply (wider s), N].
Qed.
Lemma size_type_or t o : size_type t o = t \/ size_type t o = F64.
Proof. unfold size_type. destruct (_ || _); auto. Qed.

Section G.
Variable ufilter : garr -> garr.
Variable ramp : nat -> nat -> nat -> R -> garr -> garr.
Lemma clamp_usual s lo hi a i j k : usual lo -> usual hi -> lo <= hi -> usual (av (clamp_f s lo hi a) i j k).
Proof.
  intros L H LH. pose proof (clamp_bounds (rd s lo) (rd s hi) a i j k ltac:(apply rd_le; exact LH)) as B. rewrite <- clamp_clamp in B.
  pose proof (rd_usual s _ L). pose proof (rd_usual s _ H). unfold usual in *. lra.
Qed.
(** with a timestep *)
Lemma sizes_above_f t o b vp vp1 a4 vp4 b4 low :
  int_grid vp -> bget b 0 <= bget b 1 -> usual (o_hmin o) -> usual (o_hmax o) -> o_hmin o <= o_hmax o -> number F64 (o_hmin o) ->
  usual (o_cr_max o) -> usual (o_dt o) -> 1 <= o_space_order o <= 2 ^ 20 -> (1 <= adim vp <= 3)%nat ->
  (o_pad_style o <> PadLinearRamp \/ o_domain_pad o = 0) ->
  prepare_vp_f t o vp = SzOk vp1 -> (forall i j k, inr vp i j k -> usual (av vp1 i j k)) ->
  low = (1 - 8 * ulp_of t) * rd (size_type t o) (o_hmin o) \/ (adim vp = 2%nat /\ size_type t o = t /\ low = rd t (o_hmin o)) ->
  get_sizing_f ufilter ramp t o b vp = SzOk (a4, vp4, b4) ->
  forall i j k, inr a4 i j k -> low <= av a4 i j k.
Proof.
  intros Hg Hb Uh Ux Hh Nh UC UD SO AD St Hp Hv LOW H. apply get_sizing_inv_f in H.
  destruct H as (vp1' & a0 & a2 & a3 & H1 & _ & H2 & H3 & H4 & H5 & S1 & S0 & S2 & S3). rewrite Hp in H1. injection H1 as <-.
  assert (N1 : forall i j k, number (size_type t o) (av (clamp_f (size_type t o) (o_hmin o) (o_hmax o) a0) i j k)) by (apply clamp_number, (initial_number ufilter t o vp1 a0 Nh H2)).
  assert (U : 0 < ulp_of t <= / 2 ^ 24) by apply ulp_small.
  assert (PH : 0 <= low).
  { pose proof (usual_pos _ (rd_usual (size_type t o) _ Uh)). pose proof (usual_pos _ (rd_usual t _ Uh)). destruct LOW as [->|(_ & _ & ->)]; [|lra]. apply Rmult_le_pos; lra. }
  assert (L2 : forall i j k, inr a2 i j k -> low <= av a2 i j k /\ number F64 (av a2 i j k)).
  { intros i j k Hin. split; [|eapply courant_number; [apply size_type_or|exact N1|exact H3]].
    pose proof (clamp_bounds (rd (size_type t o) (o_hmin o)) (rd (size_type t o) (o_hmax o)) a0 i j k ltac:(apply rd_le; lra)) as Hc. rewrite <- clamp_clamp in Hc.
    assert (AD1 : adim vp1 = adim vp) by apply S1.
    assert (Hv1 : usual (av vp1 i j k)) by (apply Hv; eapply shape_eq_inr; [exact S2|exact Hin]).
    pose proof (clamp_usual (size_type t o) (o_hmin o) (o_hmax o) a0 i j k Uh Ux Hh) as CU.
    destruct LOW as [->|(A2 & ET & ->)].
    - destruct (courant_point_f t (size_type t o) vp1 _ _ _ _ a2 i j k (size_type_or t o) H3 UC UD SO) as (_ & L & _); try assumption; [lia|].
      eapply Rle_trans; [|exact L]. apply Rmult_le_compat_l; lra.
    - rewrite ET in *. eapply Rle_trans; [apply Hc|]. eapply courant_2d_f; [exact H3|exact UC|exact UD|exact SO|lia|exact CU|apply N1]. }
  assert (Hg2 : int_grid a2) by (eapply shape_int_grid; [apply shape_eq_sym; exact S2|exact Hg]).
  assert (HE : 0 <= width_f (bget b 0) (bget b 1) (n0 vp1)).
  { apply width_pos; [|exact Hb]. destruct S1 as (_ & -> & _). apply Hg. }
  assert (B3 : forall i j k, inr a3 i j k -> low <= av a3 i j k <= amax a3).
  { intros i j k Hin. split; [|apply amax_ge; exact Hin].
    destruct (gradation_bounds_f _ _ _ _ low Hg2 HE PH L2 H4 i j k) as [B1 B2]; [|exact B1].
    eapply shape_eq_inr; [|exact Hin]. eapply shape_eq_trans; [exact S3|apply shape_eq_sym; exact S2]. }
  intros i j k Hin.
  eapply (fun X => proj1 (domain_pad_bounds_f ramp _ _ _ _ _ _ _ _ low (amax a3) St X H5 B3 i j k Hin)).
  apply int_grid_pos. eapply shape_int_grid; [apply shape_eq_sym; exact S3|exact Hg].
Qed.
Lemma courant_without_grading_f t o b vp vp1 a4 vp4 b4 p0 p1 p2 :
  usual (o_hmin o) -> usual (o_hmax o) -> o_hmin o <= o_hmax o -> o_grade o = 0 ->
  usual (o_cr_max o) -> usual (o_dt o) -> 1 <= o_space_order o <= 2 ^ 20 -> (1 <= adim vp <= 3)%nat ->
  (o_pad_style o <> PadLinearRamp \/ o_domain_pad o = 0) ->
  prepare_vp_f t o vp = SzOk vp1 -> pad_of_f o b vp = (p0, p1, p2) ->
  get_sizing_f ufilter ramp t o b vp = SzOk (a4, vp4, b4) ->
  forall i j k, inr vp i j k -> usual (av vp1 i j k) ->
  av vp1 i j k * o_dt o / (INR (adim vp) * av a4 (p0 + i)%nat (p1 + j)%nat (p2 + k)%nat) <= (1 + 8 * ulp_of t) * (o_cr_max o / (INR (adim vp) * o_space_order o)).
Proof.
  intros Uh Ux Hh G UC UD SO AD St Hp Pad H i j k Hin Hv. apply get_sizing_inv_f in H.
  destruct H as (vp1' & a0 & a2 & a3 & H1 & _ & H2 & H3 & H4 & H5 & S1 & S0 & S2 & S3). rewrite Hp in H1. injection H1 as <-.
  rewrite G in H4. unfold gradation_f in H4. rewrite (proj2 (Reqb_true 0 0)) in H4 by reflexivity. injection H4 as <-.
  assert (AD1 : adim vp1 = adim vp) by apply S1.
  assert (Epad : (if Rgtb (o_domain_pad o) 0 then pad_counts_f vp1 b (o_domain_pad o) else (0, 0, 0)%nat) = (p0, p1, p2)).
  { rewrite <- Pad. unfold pad_of_f, pad_counts_f. destruct S1 as (-> & -> & -> & ->). reflexivity. }
  assert (Hin3 : inr a2 i j k) by (eapply shape_eq_inr; [apply shape_eq_sym; exact S2|exact Hin]).
  rewrite (domain_pad_inner_f ramp _ _ _ _ _ _ _ _ p0 p1 p2 i j k St H5 Epad Hin3).
  destruct (courant_point_f t (size_type t o) vp1 _ _ _ _ a2 i j k (size_type_or t o) H3 UC UD SO) as (C & _ & _); try assumption; [lia|apply clamp_usual; assumption|].
  rewrite AD1 in C. exact C.
Qed.
End G.
