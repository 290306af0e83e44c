(** C109: mesh sizes in single and double precision.  C110: domain padding in double precision. *)
From Coq Require Import List ZArith Reals Lia Lra Psatz Bool.
From Flocq Require Import Core.
From Verif Require Import Model.Base Model.FastHJ Model.Sizing Model.SizingFloat Spec.Grid Spec.Precision
  Proofs.ListAux Proofs.SizingArr Proofs.SizingMain Proofs.SizingMore Proofs.SnapProofs Proofs.SizingFloatProofs.
Import ListNotations.
Local Open Scope R_scope.

(** C109: without a timestep the sizes lie between hmin and hmax as numbers of the type of the size array (the type of the velocities,
    or float64 when neither wl nor grad is used). *)
Theorem C109_bounds : forall ufilter ramp t o b vp a4 vp4 b4,
  int_grid vp -> bget b 0 <= bget b 1 -> 0 <= o_hmin o <= o_hmax o -> number F64 (o_hmin o) ->
  (o_dt o = 0 \/ o_cr_max o = 0 \/ o_space_order o = 0) -> (o_pad_style o <> PadLinearRamp \/ o_domain_pad o = 0) ->
  get_sizing_f ufilter ramp t o b vp = SzOk (a4, vp4, b4) ->
  forall i j k, inr a4 i j k ->
  let s := if Rgtb (o_wl o) 0 || Rgtb (o_grad o) 0 then t else F64 in rd s (o_hmin o) <= av a4 i j k <= rd s (o_hmax o).
Proof. intros ufilter ramp t o b vp a4 vp4 b4 H1 H2 H3 H4 H5 H6 H7 i j k Hin. exact (sizes_in_range_f ufilter ramp t o b vp a4 vp4 b4 H1 H2 H3 H4 H5 H6 H7 i j k Hin). Qed.
Print Assumptions C109_bounds.

(** Velocities in double precision: exactly. *)
Theorem C109_bounds_double : forall ufilter ramp o b vp a4 vp4 b4,
  int_grid vp -> bget b 0 <= bget b 1 -> 0 <= o_hmin o <= o_hmax o -> number F64 (o_hmin o) -> number F64 (o_hmax o) ->
  (o_dt o = 0 \/ o_cr_max o = 0 \/ o_space_order o = 0) -> (o_pad_style o <> PadLinearRamp \/ o_domain_pad o = 0) ->
  get_sizing_f ufilter ramp F64 o b vp = SzOk (a4, vp4, b4) ->
  forall i j k, inr a4 i j k -> o_hmin o <= av a4 i j k <= o_hmax o.
Proof.
  intros ufilter ramp o b vp a4 vp4 b4 H1 H2 H3 H4 H4' H5 H6 H7 i j k Hin. pose proof (sizes_in_range_f ufilter ramp F64 o b vp a4 vp4 b4 H1 H2 H3 H4 H5 H6 H7 i j k Hin) as B.
  assert (size_type F64 o = F64) as E by (unfold size_type; destruct (_ || _); reflexivity). rewrite E in B. rewrite !rd_id in B by assumption. exact B.
Qed.
Print Assumptions C109_bounds_double.

(** In either precision: up to half a unit in the last place. *)
Theorem C109_bounds_rounded : forall ufilter ramp t o b vp a4 vp4 b4,
  int_grid vp -> bget b 0 <= bget b 1 -> / 2 ^ 126 <= o_hmin o <= o_hmax o -> number F64 (o_hmin o) ->
  (o_dt o = 0 \/ o_cr_max o = 0 \/ o_space_order o = 0) -> (o_pad_style o <> PadLinearRamp \/ o_domain_pad o = 0) ->
  get_sizing_f ufilter ramp t o b vp = SzOk (a4, vp4, b4) ->
  forall i j k, inr a4 i j k -> (1 - ulp_of t) * o_hmin o <= av a4 i j k <= (1 + ulp_of t) * o_hmax o.
Proof.
  intros ufilter ramp t o b vp a4 vp4 b4 H1 H2 H3 H4 H5 H6 H7 i j k Hin.
  assert (P : 0 < / 2 ^ 126) by (apply Rinv_0_lt_compat, pow_lt; lra).
  pose proof (sizes_in_range_f ufilter ramp t o b vp a4 vp4 b4 H1 H2 ltac:(lra) H4 H5 H6 H7 i j k Hin) as B.
  destruct (rd_in (size_type t o) t (o_hmin o) (size_type_or t o) ltac:(lra)) as (L & _).
  destruct (rd_in (size_type t o) t (o_hmax o) (size_type_or t o) ltac:(lra)) as (_ & U). lra.
Qed.
Print Assumptions C109_bounds_rounded.

(** The velocities the sizes are computed from: a sample that is not water (2e-3 m/s or more) is converted to m/s up to three roundings; a sample that is
    zero, below the first row, becomes the water velocity given. *)
Definition to_ms (u : units) : R := match u with KMS => 1000 | FTS => 3 / 10 | _ => 1 end.
Theorem C109_velocity : forall t o vp vp1 i j k, prepare_vp_f t o vp = SzOk vp1 -> inr vp i j k ->
  (2 / 1000 <= to_ms (o_units o) * av vp i j k -> exists f, 1 - 31 / 10 * ulp_of t <= f <= 1 + 31 / 10 * ulp_of t /\ av vp1 i j k = f * (to_ms (o_units o) * av vp i j k)) /\
  (av vp i j k = 0 -> (0 < i)%nat -> exists x, o_vp_water o = Some x /\ 1300 <= x <= 1800 /\ av vp1 i j k = rd t x).
Proof.
  intros t o vp vp1 i j k H Hin. pose proof (ulp_small t) as U.
  assert (E1 : / 2 ^ 126 <= 1 / 10000). { apply Rle_trans with (/ 2 ^ 20); [apply Rinv_le_contravar; [apply pow_lt; lra|apply Rle_pow; [lra|lia]]|]. replace (2 ^ 20) with 1048576 by ring. lra. }
  assert (U' : 0 < ulp_of t <= / 1000000). { split; [apply U|]. eapply Rle_trans; [apply U|]. replace (2 ^ 24) with 16777216 by ring. lra. }
  assert (C : 2 / 1000 <= to_ms (o_units o) * av vp i j k -> exists f, 1 - 31 / 10 * ulp_of t <= f <= 1 + 31 / 10 * ulp_of t /\ av (convert_units_f t (o_units o) vp) i j k = f * (to_ms (o_units o) * av vp i j k)).
  { intros V. destruct (o_units o); cbn [to_ms convert_units_f amap av] in *.
    - exists 1. lra.
    - destruct (rd_factor t t (av vp i j k * 1000) (or_introl eq_refl) ltac:(lra)) as (f & F & ->). exists f. split; [lra|ring].
    - destruct (rd_factor F64 t (3 / 10) (or_intror eq_refl) ltac:(lra)) as (f & F & E). change (rd F64 (3 / 10)) with (rnd64 (3 / 10)) in E. rewrite E.
      destruct (rd_factor t t (f * (3 / 10)) (or_introl eq_refl)) as (g & G & ->); [apply Rle_trans with (1 / 10); lra|].
      assert (P : 9 / 10 * (3 / 10) <= g * (f * (3 / 10)) <= 11 / 10 * (3 / 10)).
      { replace (g * (f * (3 / 10))) with (g * f * (3 / 10)) by ring. destruct (factor2 (ulp_of t) g f U G F). split; apply Rmult_le_compat_r; lra. }
      destruct (rd_factor t t (av vp i j k * (g * (f * (3 / 10)))) (or_introl eq_refl)) as (h & Hh & ->).
      { apply Rle_trans with (1 / 10000); [exact E1|]. apply Rle_trans with (av vp i j k * (9 / 10 * (3 / 10))); [lra|]. apply Rmult_le_compat_l; lra. }
      exists (h * g * f). split; [apply factor3; assumption|ring].
    - exists 1. lra. }
  unfold prepare_vp_f, replace_water_f in H. set (v1 := convert_units_f t (o_units o) vp) in *.
  assert (TH : 1 / 10000 <= rd t (rnd64 (1 / 1000)) <= 15 / 10000).
  { destruct (rd_factor F64 t (1 / 1000) (or_intror eq_refl) ltac:(lra)) as (f & F & E). change (rd F64 (1 / 1000)) with (rnd64 (1 / 1000)) in E. rewrite E.
    destruct (rd_factor t t (f * (1 / 1000)) (or_introl eq_refl)) as (g & G & ->); [apply Rle_trans with (1 / 10000); lra|].
    replace (g * (f * (1 / 1000))) with (g * f * (1 / 1000)) by ring. destruct (factor2 (ulp_of t) g f U G F). lra. }
  split.
  - intros V. destruct (C V) as (f & F & E). exists f. split; [exact F|]. rewrite <- E.
    assert (NW : is_water_f t (av v1 i j k) = false).
    { apply Rltb_false. rewrite E. apply Rle_trans with (15 / 10000); [apply TH|]. apply Rle_trans with (9 / 10 * (2 / 1000)); [lra|]. apply Rmult_le_compat; lra. }
    destruct (water_trigger_f t v1); [|injection H as <-; reflexivity]. destruct (o_vp_water o) as [x|]; [|discriminate]. destruct (_ || _); [discriminate|].
    injection H as <-. cbn [amap av]. rewrite NW. reflexivity.
  - intros V I. assert (Z : av v1 i j k = 0).
    { unfold v1. destruct (o_units o); cbn [convert_units_f amap av]; rewrite V, ?Rmult_0_l; try reflexivity; destruct t; apply round_0, valid_rnd_N. }
    assert (W : is_water_f t 0 = true) by (apply Rltb_true; lra).
    assert (T : water_trigger_f t v1 = true).
    { unfold water_trigger_f. apply existsb_exists. exists (i, j, k). split; [apply in_triples; unfold inr in Hin; destruct (convert_shape_f t (o_units o) vp) as (_ & E0 & E2 & E3); fold v1 in E0, E2, E3; rewrite E0, E2, E3; tauto|].
      rewrite Z, W. cbn [andb]. apply negb_true_iff, Nat.eqb_neq. lia. }
    rewrite T in H. destruct (o_vp_water o) as [x|]; [|discriminate]. destruct (Rltb x 1300) eqn:X1; [discriminate|]. cbn [orb] in H. unfold Rgtb in H.
    destruct (Rltb 1800 x) eqn:X2; [discriminate|]. apply Rltb_false in X1, X2. injection H as <-. exists x. split; [reflexivity|]. split; [lra|]. cbn [amap av]. rewrite Z, W. reflexivity.
Qed.
Print Assumptions C109_velocity.

(** Cells per wavelength. *)
Theorem C109_wavelength : forall ufilter ramp t o b vp vp1 a4 vp4 b4 p0 p1 p2,
  int_grid vp -> bget b 0 <= bget b 1 -> / 2 ^ 126 <= o_hmin o <= o_hmax o -> number F64 (o_hmin o) ->
  (o_dt o = 0 \/ o_cr_max o = 0 \/ o_space_order o = 0) -> (o_pad_style o <> PadLinearRamp \/ o_domain_pad o = 0) ->
  usual (o_wl o) -> usual (o_freq o) ->
  prepare_vp_f t o vp = SzOk vp1 -> pad_of_f o b vp = (p0, p1, p2) ->
  get_sizing_f ufilter ramp t o b vp = SzOk (a4, vp4, b4) ->
  forall i j k, inr vp i j k -> usual (av vp1 i j k) ->
  av a4 (p0 + i)%nat (p1 + j)%nat (p2 + k)%nat <= (1 + 4 * ulp_of t) * Rmax (o_hmin o) (av vp1 i j k / (o_freq o * o_wl o)).
Proof.
  intros ufilter ramp t o b vp vp1 a4 vp4 b4 p0 p1 p2 H1 H2 H3 H4 H5 H6 W F H7 H8 H9 i j k Hin V.
  assert (P : 0 < / 2 ^ 126) by (apply Rinv_0_lt_compat, pow_lt; lra).
  pose proof (wave_f ufilter ramp t o b vp vp1 a4 vp4 b4 p0 p1 p2 H1 H2 ltac:(lra) H4 H5 H6 (usual_pos _ W) H7 H8 H9 i j k Hin) as B.
  eapply Rle_trans; [exact B|]. clear B. pose proof (ulp_small t) as U. set (u := ulp_of t) in *.
  assert (PM : 0 <= Rmax (o_hmin o) (av vp1 i j k / (o_freq o * o_wl o))) by (eapply Rle_trans; [|apply Rmax_l]; lra).
  apply Rmax_lub.
  - destruct (rd_in t t (o_hmin o) (or_introl eq_refl) ltac:(lra)) as (_ & B). fold u in B. eapply Rle_trans; [exact B|].
    apply Rmult_le_compat; try lra. apply Rmax_l.
  - eapply Rle_trans; [|apply Rmult_le_compat_l; [lra|apply Rmax_r]]. unfold wave_divisor. unfold usual in *.
    set (v := av vp1 i j k) in *. set (f := o_freq o) in *. set (w := o_wl o) in *.
    assert (Q : / 2 ^ 40 <= f * w <= 2 ^ 40).
    { replace (/ 2 ^ 40) with (/ 2 ^ 20 * / 2 ^ 20) by lra. replace (2 ^ 40) with (2 ^ 20 * 2 ^ 20) by lra. split; apply Rmult_le_compat; lra. }
    destruct (rd_factor F64 t (f * w) (or_intror eq_refl)) as (f1 & F1 & E1); [apply (tiny_le _ 40); [lia|lra]|]. cbn [rd] in E1. fold u in F1.
    pose proof (half_double u f1 (f * w) (/ 2 ^ 40) (2 ^ 40) U F1 ltac:(lra) Q) as Q1. rewrite <- E1 in Q1.
    destruct (rd_factor t t (rnd64 (f * w)) (or_introl eq_refl)) as (f2 & F2 & E2); [apply (tiny_le _ 41); [lia|lra]|]. fold u in F2.
    pose proof (half_double u f2 (rnd64 (f * w)) (/ 2 ^ 40 / 2) (2 * 2 ^ 40) U F2 ltac:(lra) Q1) as Q2. rewrite <- E2 in Q2.
    assert (Q3 : / 2 ^ 62 <= v / rd t (rnd64 (f * w))).
    { replace (/ 2 ^ 62) with (/ 2 ^ 20 * / 2 ^ 42) by lra. unfold Rdiv. apply Rmult_le_compat; try lra. apply Rinv_le_contravar; lra. }
    destruct (rd_factor t t (v / rd t (rnd64 (f * w))) (or_introl eq_refl)) as (f3 & F3 & E3); [apply (tiny_le _ 62); [lia|exact Q3]|]. fold u in F3.
    rewrite E3, E2, E1. pose proof (factor2 u f2 f1 U F2 F1) as F21.
    assert (0 < f1 /\ 0 < f2) as (p1' & p2') by lra.
    replace (f3 * (v / (f2 * (f1 * (f * w))))) with (f3 / (f2 * f1) * (v / (f * w))) by (field; repeat split; lra).
    apply Rmult_le_compat_r; [apply Rlt_le, Rdiv_lt_0_compat; lra|]. set (g := f2 * f1) in *. clearbody g.
    assert (0 < u < 1 / 1000000) as US by lra. apply Rmult_le_reg_r with g; [lra|]. unfold Rdiv. rewrite Rmult_assoc, Rinv_l, Rmult_1_r by lra.
    apply Rle_trans with ((1 + 4 * u) * (1 - 201 / 100 * u)); [clear - F3 US; nra|]. apply Rmult_le_compat_l; lra.
Qed.
Print Assumptions C109_wavelength.

(** The Courant step: the Courant number is within 8 units of the limit, a size shrinks by at most that, and a size clearly within the
    limit is not touched. *)
Theorem C109_courant_step : forall t s vp a cr_max dt space_order a' i j k, s = t \/ s = F64 ->
  courant_f t s vp a cr_max dt space_order = SzOk a' -> usual cr_max -> usual dt -> 1 <= space_order <= 2 ^ 20 ->
  (1 <= adim vp <= 3)%nat -> usual (av vp i j k) -> usual (av a i j k) ->
  let dim := INR (adim vp) in let u := ulp_of t in
  av vp i j k * dt / (dim * av a' i j k) <= (1 + 8 * u) * (cr_max / (dim * space_order)) /\
  (1 - 8 * u) * av a i j k <= av a' i j k /\
  (av vp i j k * dt / (dim * av a i j k) <= (1 - 8 * u) * (cr_max / (dim * space_order)) -> av a' i j k = av a i j k).
Proof. exact courant_point_f. Qed.
Print Assumptions C109_courant_step.

(** The whole call without grading. *)
Theorem C109_courant : forall ufilter ramp t o b vp vp1 a4 vp4 b4 p0 p1 p2,
  usual (o_hmin o) -> usual (o_hmax o) -> o_hmin o <= o_hmax o -> o_grade o = 0 ->
  usual (o_cr_max o) -> usual (o_dt o) -> 1 <= o_space_order o <= 2 ^ 20 -> (1 <= adim vp <= 3)%nat ->
  (o_pad_style o <> PadLinearRamp \/ o_domain_pad o = 0) ->
  prepare_vp_f t o vp = SzOk vp1 -> pad_of_f o b vp = (p0, p1, p2) ->
  get_sizing_f ufilter ramp t o b vp = SzOk (a4, vp4, b4) ->
  forall i j k, inr vp i j k -> usual (av vp1 i j k) ->
  av vp1 i j k * o_dt o / (INR (adim vp) * av a4 (p0 + i)%nat (p1 + j)%nat (p2 + k)%nat)
    <= (1 + 8 * ulp_of t) * (o_cr_max o / (INR (adim vp) * o_space_order o)).
Proof. exact courant_without_grading_f. Qed.
Print Assumptions C109_courant.

(** With a timestep, any grading: not below hmin by more than 9 units ... *)
Theorem C109_lower_bound : forall ufilter ramp t o b vp vp1 a4 vp4 b4,
  int_grid vp -> bget b 0 <= bget b 1 -> usual (o_hmin o) -> usual (o_hmax o) -> o_hmin o <= o_hmax o -> number F64 (o_hmin o) ->
  usual (o_cr_max o) -> usual (o_dt o) -> 1 <= o_space_order o <= 2 ^ 20 -> (1 <= adim vp <= 3)%nat ->
  (o_pad_style o <> PadLinearRamp \/ o_domain_pad o = 0) ->
  prepare_vp_f t o vp = SzOk vp1 -> (forall i j k, inr vp i j k -> usual (av vp1 i j k)) ->
  get_sizing_f ufilter ramp t o b vp = SzOk (a4, vp4, b4) ->
  forall i j k, inr a4 i j k -> (1 - 9 * ulp_of t) * o_hmin o <= av a4 i j k.
Proof.
  intros ufilter ramp t o b vp vp1 a4 vp4 b4 H1 H2 H3 H4 H5 H6 H7 H8 H9 H10 H11 H12 H13 H14 i j k Hin.
  eapply Rle_trans; [|refine (sizes_above_f ufilter ramp t o b vp vp1 a4 vp4 b4 _ H1 H2 H3 H4 H5 H6 H7 H8 H9 H10 H11 H12 H13 (or_introl eq_refl) H14 i j k Hin)].
  pose proof (usual_pos _ H3) as P. pose proof (ulp_small t) as U. destruct (rd_in (size_type t o) t (o_hmin o) (size_type_or t o)) as (L & _); [apply (tiny_le _ 20); [lia|apply H3]|].
  set (u := ulp_of t) in *. apply Rle_trans with ((1 - 8 * u) * ((1 - u) * o_hmin o)); [|apply Rmult_le_compat_l; lra].
  replace ((1 - 8 * u) * ((1 - u) * o_hmin o)) with ((1 - 8 * u) * (1 - u) * o_hmin o) by ring. apply Rmult_le_compat_r; [lra|]. clear - U. nra.
Qed.
Print Assumptions C109_lower_bound.

(** ... and in two dimensions with velocities in double precision never below it. *)
Theorem C109_lower_bound_2d : forall ufilter ramp o b vp vp1 a4 vp4 b4,
  int_grid vp -> bget b 0 <= bget b 1 -> usual (o_hmin o) -> usual (o_hmax o) -> o_hmin o <= o_hmax o -> number F64 (o_hmin o) ->
  usual (o_cr_max o) -> usual (o_dt o) -> 1 <= o_space_order o <= 2 ^ 20 -> adim vp = 2%nat ->
  (o_pad_style o <> PadLinearRamp \/ o_domain_pad o = 0) ->
  prepare_vp_f F64 o vp = SzOk vp1 -> (forall i j k, inr vp i j k -> usual (av vp1 i j k)) ->
  get_sizing_f ufilter ramp F64 o b vp = SzOk (a4, vp4, b4) ->
  forall i j k, inr a4 i j k -> o_hmin o <= av a4 i j k.
Proof.
  intros ufilter ramp o b vp vp1 a4 vp4 b4 H1 H2 H3 H4 H5 H6 H7 H8 H9 H10 H11 H12 H13 H14 i j k Hin.
  assert (E : size_type F64 o = F64) by (unfold size_type; destruct (_ || _); reflexivity).
  refine (sizes_above_f ufilter ramp F64 o b vp vp1 a4 vp4 b4 _ H1 H2 H3 H4 H5 H6 H7 H8 H9 _ H11 H12 H13 (or_intror (conj H10 (conj E _))) H14 i j k Hin); [lia|].
  symmetry. apply rd_id, H6.
Qed.
Print Assumptions C109_lower_bound_2d.

(** ---- witnesses ---- *)
Lemma pow_bpow n : 2 ^ n = bpow radix2 (Z.of_nat n).
Proof. rewrite bpow_powerRZ. rewrite <- pow_powerRZ. reflexivity. Qed.
Lemma round_lit (emin prec : Z) (p k : nat) x m : prec = Z.of_nat (S p) -> (emin <= - Z.of_nat k)%Z -> 2 ^ p <= x * 2 ^ k < 2 ^ S p -> ZnearestE (x * 2 ^ k) = m ->
  round radix2 (FLT_exp emin prec) ZnearestE x = IZR m / 2 ^ k.
Proof.
  intros EP E B C. rewrite !pow_bpow in B. rewrite pow_bpow in C |- *. set (e := (- Z.of_nat k)%Z).
  assert (K : bpow radix2 (Z.of_nat k) = bpow radix2 (- e)) by (f_equal; unfold e; ring). rewrite K in *.
  assert (G : 0 < bpow radix2 (- e)) by apply bpow_gt_0. assert (GG : bpow radix2 (- e) * bpow radix2 e = 1) by (rewrite <- bpow_plus, Z.add_opp_diag_l; reflexivity).
  assert (Ge : 0 < bpow radix2 e) by apply bpow_gt_0.
  assert (B' : bpow radix2 (Z.of_nat p + e) <= x < bpow radix2 (Z.of_nat (S p) + e)).
  { rewrite !bpow_plus. replace x with (x * bpow radix2 (- e) * bpow radix2 e) at 1 2 by (rewrite Rmult_assoc, GG; ring).
    split; [apply Rmult_le_compat_r|apply Rmult_lt_compat_r]; lra. }
  assert (X : 0 < x) by (pose proof (bpow_gt_0 radix2 (Z.of_nat p + e)); lra).
  assert (CE : cexp radix2 (FLT_exp emin prec) x = e).
  { unfold cexp. rewrite (mag_unique radix2 x (Z.of_nat (S p) + e)); [unfold FLT_exp; lia|]. rewrite Rabs_right by lra. replace (Z.of_nat (S p) + e - 1)%Z with (Z.of_nat p + e)%Z by lia. exact B'. }
  unfold round, scaled_mantissa, F2R. cbn [Fnum Fexp]. rewrite CE, C.
  apply Rmult_eq_reg_r with (bpow radix2 (- e)); [|lra]. unfold Rdiv. rewrite !Rmult_assoc, Rinv_l, (Rmult_comm (bpow radix2 e)), GG by lra. reflexivity.
Qed.
Lemma rnd64_lit k x m : (k <= 1074)%nat -> 2 ^ 52 <= x * 2 ^ k < 2 ^ 53 -> Rabs (x * 2 ^ k - IZR m) < / 2 -> rnd64 x = IZR m / 2 ^ k.
Proof. intros K B C. apply (round_lit (-1074) 53 52); [reflexivity|lia|exact B|]. apply Znearest_imp, C. Qed.
Lemma tie x m : x = IZR m + / 2 -> ZnearestE x = if Z.even m then m else (m + 1)%Z.
Proof.
  intros E. assert (F : Zfloor x = m) by (apply Zfloor_imp; rewrite plus_IZR; lra). unfold Znearest. rewrite F. rewrite Rcompare_Eq by lra.
  destruct (Z.even m); cbn [negb]; [reflexivity|]. apply Zceil_imp. rewrite minus_IZR, !plus_IZR. lra.
Qed.
Lemma rnd64_tie k x m : (k <= 1074)%nat -> 2 ^ 52 <= x * 2 ^ k < 2 ^ 53 -> x * 2 ^ k = IZR m + / 2 -> rnd64 x = IZR (if Z.even m then m else m + 1) / 2 ^ k.
Proof. intros K B C. apply (round_lit (-1074) 53 52); [reflexivity|lia|exact B|]. apply tie, C. Qed.
Lemma rnd32_lit k x m : (k <= 149)%nat -> 2 ^ 23 <= x * 2 ^ k < 2 ^ 24 -> Rabs (x * 2 ^ k - IZR m) < / 2 -> rnd32 x = IZR m / 2 ^ k.
Proof. intros K B C. apply (round_lit (-149) 24 23); [reflexivity|lia|exact B|]. apply Znearest_imp, C. Qed.
Lemma lit_number t m k : (Z.abs m < 2 ^ 24)%Z -> (k <= 149)%nat -> number t (IZR m / 2 ^ k).
Proof.
  intros M K. rewrite pow_bpow. unfold Rdiv. rewrite <- bpow_opp.
  destruct t; (apply generic_format_FLT; exists (Float radix2 m (- Z.of_nat k)); [reflexivity|cbn [Fnum]; eapply Z.lt_le_trans; [exact M|]; cbn; lia|cbn [Fexp]; lia]).
Qed.
Lemma lit64 m k : (Z.abs m < 2 ^ 53)%Z -> (k <= 1074)%nat -> number F64 (IZR m / 2 ^ k).
Proof.
  intros M K. rewrite pow_bpow. unfold Rdiv. rewrite <- bpow_opp.
  apply generic_format_FLT; exists (Float radix2 m (- Z.of_nat k)); [reflexivity|exact M|cbn [Fexp]; lia].
Qed.
Lemma id64 x : number F64 x -> rnd64 x = x. Proof. exact (rd_id F64 x). Qed.
Lemma id32 x : number F32 x -> rnd32 x = x. Proof. exact (rd_id F32 x). Qed.

(** Single precision, hmin = 150 + 2^-20: every size is 150, below hmin. *)
Definition low_opts : opts := mkOpts (Some 1500) (157286401 / 2 ^ 20) 10000 10 2 0 0 1 0 1 PadEdge 0 MS.
Lemma not_water t v : 1 <= v -> is_water_f t v = false.
Proof.
  intros V. apply Rltb_false. apply Rle_trans with 1; [|exact V].
  assert (N : number t 1). { replace 1 with (IZR 1 / 2 ^ 0) by (cbn; lra). apply lit_number; [reflexivity|lia]. }
  apply Rle_trans with (rd t 1); [|rewrite (rd_id t 1 N); lra]. apply rd_le. apply Rle_trans with (rd F64 1); [apply (rd_le F64); lra|]. rewrite (rd_id F64 1 (wider t 1 N)). lra.
Qed.
Lemma plain_prepare t o vp : o_units o = MS -> (forall i j k, 1 <= av vp i j k) -> prepare_vp_f t o vp = SzOk vp.
Proof.
  intros U V. unfold prepare_vp_f, replace_water_f. rewrite U. cbn [convert_units_f].
  assert (water_trigger_f t vp = false) as ->; [|reflexivity].
  unfold water_trigger_f. apply Bool.not_true_iff_false. intros E. apply existsb_exists in E. destruct E as ((p & k) & _ & E). destruct p as (i, j).
  rewrite not_water in E by apply V. discriminate.
Qed.
Theorem C109_single_below_hmin_refuted : forall ufilter ramp, exists o b vp a4 vp4 b4,
  int_grid vp /\ (forall i j k, number F32 (av vp i j k)) /\ 0 < o_hmin o <= o_hmax o /\ number F64 (o_hmin o) /\ o_dt o = 0 /\
  get_sizing_f ufilter ramp F32 o b vp = SzOk (a4, vp4, b4) /\ (forall i j k, inr a4 i j k -> av a4 i j k < o_hmin o).
Proof.
  intros ufilter ramp. exists low_opts, [0; 100; 0; 100], (col2 1500 1500).
  assert (V : forall i j k, av (col2 1500 1500) i j k = 1500) by (intros; cbn; destruct (Nat.eqb i 0); reflexivity).
  eexists. exists (col2 1500 1500), [0; 100; 0; 100]. split; [apply col2_int|]. split.
  { intros i j k. rewrite V. replace 1500 with (IZR 1500 / 2 ^ 0) by (cbn; lra). apply lit_number; [reflexivity|lia]. }
  split; [cbn [o_hmin o_hmax low_opts]; lra|]. split; [apply (lit64 157286401 20); [reflexivity|lia]|]. split; [reflexivity|]. split.
  - unfold get_sizing_f. rewrite plain_prepare; [|reflexivity|intros; rewrite V; lra]. cbn [sbind]. unfold bbox_dim. cbn [length Nat.eqb].
    unfold initial_size_f, size_type. cbn [o_wl o_grad low_opts o_freq o_hmin o_hmax o_dt o_cr_max o_space_order o_grade o_pad_style o_domain_pad].
    assert (Rgtb 10 0 = true) as -> by (unfold Rgtb; apply Rltb_true; lra). cbn [orb].
    unfold wavelength_sizing_f, gradient_sizing_f. rewrite (proj2 (Reqb_false 10 0)), (proj2 (Rltb_false 10 0)), (proj2 (Rltb_false 2 0)), (proj2 (Reqb_true 0 0)) by lra.
    assert (WD : wave_divisor F32 2 10 = 20).
    { unfold wave_divisor. replace (2 * 10) with (IZR 20 / 2 ^ 0) by (cbn; lra). rewrite id64 by (apply lit_number; [reflexivity|lia]).
      cbn [rd]. rewrite id32 by (apply lit_number; [reflexivity|lia]). cbn; lra. }
    rewrite WD. rewrite (proj2 (Reqb_false 20 0)) by lra. cbn [sbind].
    rewrite courant_off_f by auto. cbn [sbind]. unfold gradation_f. rewrite (proj2 (Reqb_true 0 0)) by reflexivity. cbn [sbind].
    unfold domain_pad_f, Rgtb. rewrite (proj2 (Rltb_false 0 0)) by lra. reflexivity.
  - intros i j k _. cbn [av clamp_f amap amap2]. rewrite V. cbn [o_hmin o_hmax low_opts rd].
    assert (R1 : rnd32 (1500 / 20) = 75). { replace (1500 / 20) with (IZR 75 / 2 ^ 0) by (cbn; lra). rewrite id32 by (apply lit_number; [reflexivity|lia]). cbn; lra. }
    assert (R2 : rnd32 (157286401 / 2 ^ 20) = 150). { rewrite (rnd32_lit 16 _ 9830400); [lra|lia|lra|]. apply Rabs_def1; lra. }
    assert (R3 : rnd32 10000 = 10000). { replace 10000 with (IZR 10000 / 2 ^ 0) by (cbn; lra). rewrite id32 by (apply lit_number; [reflexivity|lia]). reflexivity. }
    rewrite R1, R2, R3. rewrite Rmin_left by lra. unfold Rgtb. rewrite (proj2 (Rltb_true 75 150)) by lra. rewrite (proj2 (Rltb_false 10000 150)) by lra. lra.
Qed.
Print Assumptions C109_single_below_hmin_refuted.

(** Three dimensions, double precision: hmin = 208.2, dt = 0.015, cr_max = 0.9, space_order = 3 and v = 4164: a size below hmin. *)
Definition h3 : R := 7325386268894822 / 2 ^ 45.
Definition dt3 : R := 8646911284551352 / 2 ^ 59.
Definition cr3 : R := 8106479329266893 / 2 ^ 53.
Definition opts3 : opts := mkOpts (Some 1500) h3 10000 0 2 0 0 3 dt3 cr3 PadEdge 0 MS.
Definition vp3 : garr := mkArr 3 1 1 1 (fun _ _ _ => 4164).
Theorem C109_below_hmin_3d_refuted : Rabs (h3 - 2082 / 10) < / 2 ^ 40 /\ Rabs (dt3 - 15 / 1000) < / 2 ^ 50 /\ Rabs (cr3 - 9 / 10) < / 2 ^ 50 /\
  forall ufilter ramp, exists a4, get_sizing_f ufilter ramp F64 opts3 [0; 1; 0; 1; 0; 1] vp3 = SzOk (a4, vp3, [0; 1; 0; 1; 0; 1]) /\
    o_hmin opts3 = h3 /\ (forall i j k, inr a4 i j k -> av a4 i j k < h3).
Proof.
  unfold h3, dt3, cr3. split; [apply Rabs_def1; lra|]. split; [apply Rabs_def1; lra|]. split; [apply Rabs_def1; lra|]. fold h3 dt3 cr3.
  intros ufilter ramp. eexists. split; [|split; [reflexivity|]].
  - unfold get_sizing_f. rewrite plain_prepare; [|reflexivity|intros; cbn; lra]. cbn [sbind]. unfold bbox_dim. cbn [length Nat.eqb].
    unfold initial_size_f, size_type. cbn [o_wl o_grad opts3 o_freq o_hmin o_hmax o_dt o_cr_max o_space_order o_grade o_pad_style o_domain_pad].
    assert (Rgtb 0 0 = false) as -> by (unfold Rgtb; apply Rltb_false; lra). cbn [orb sbind].
    unfold courant_f. rewrite (proj2 (Reqb_false cr3 0)), (proj2 (Reqb_false dt3 0)), (proj2 (Reqb_false 3 0)) by (unfold cr3, dt3; lra). cbn [orb].
    rewrite (proj2 (Rltb_false cr3 0)), (proj2 (Rltb_false dt3 0)), (proj2 (Rltb_false 3 1)) by (unfold cr3, dt3; lra).
    assert (existsb (fun x => Reqb x 0) (flattenF (clamp_f F64 h3 10000 (amap (fun _ => h3) vp3))) = false) as ->.
    { unfold flattenF. cbn [n0 n1 n2 clamp_f amap vp3 triples seq flat_map map app existsb av]. rewrite orb_false_r. apply Reqb_false.
      assert (0 < rd F64 h3). { apply (Rlt_le_trans _ 1); [lra|]. rewrite <- (rd_id F64 1). apply rd_le; unfold h3; lra. replace 1 with (IZR 1 / 2 ^ 0) by (cbn; lra). apply lit_number; [reflexivity|lia]. }
      assert (0 < rd F64 10000). { apply (Rlt_le_trans _ 1); [lra|]. rewrite <- (rd_id F64 1). apply rd_le; lra. replace 1 with (IZR 1 / 2 ^ 0) by (cbn; lra). apply lit_number; [reflexivity|lia]. }
      assert (0 < h3) by (unfold h3; lra). destruct (Rltb h3 (rd F64 h3)), (Rgtb _ (rd F64 10000)); lra. }
    cbn [sbind]. unfold gradation_f. rewrite (proj2 (Reqb_true 0 0)) by reflexivity. cbn [sbind].
    unfold domain_pad_f, Rgtb. rewrite (proj2 (Rltb_false 0 0)) by lra. reflexivity.
  - intros i j k _. cbn [av clamp_f amap amap2 vp3 adim rd].
    assert (Nh : rnd64 h3 = h3) by (apply (rd_id F64); apply (lit64 7325386268894822 45); [reflexivity|lia]).
    assert (Nd : rnd64 dt3 = dt3) by (apply (rd_id F64); apply (lit64 8646911284551352 59); [reflexivity|lia]).
    assert (N1 : rnd64 10000 = 10000). { replace 10000 with (IZR 10000 / 2 ^ 0) by (cbn; lra). apply (rd_id F64), lit_number; [reflexivity|lia]. }
    rewrite Nh, Nd, N1. rewrite (proj2 (Rltb_false h3 h3)) by lra. unfold Rgtb. rewrite (proj2 (Rltb_false 10000 h3)) by (unfold h3; lra).
    replace (INR 3) with 3 by (cbn; lra). unfold limit_f.
    assert (N9 : rnd64 (3 * 3) = 9). { replace (3 * 3) with (IZR 9 / 2 ^ 0) by (cbn; lra). rewrite id64 by (apply lit_number; [reflexivity|lia]). cbn; lra. }
    rewrite N9.
    assert (C : rnd64 (cr3 / 9) = 7205759403792794 / 2 ^ 56) by (apply rnd64_lit; [lia|unfold cr3; lra|unfold cr3; apply Rabs_def1; lra]).
    assert (Y : rnd64 (4164 * dt3) = 8790463522673787 / 2 ^ 47) by (apply rnd64_lit; [lia|unfold dt3; lra|unfold dt3; apply Rabs_def1; lra]).
    assert (X : rnd64 (3 * h3) = 5494039701671116 / 2 ^ 43) by (apply (rnd64_tie 43 _ 5494039701671116); [lia|unfold h3; lra|unfold h3; lra]).
    assert (D : rnd64 (3 * (7205759403792794 / 2 ^ 56)) = 5404319552844596 / 2 ^ 54) by (apply (rnd64_tie 54 _ 5404319552844595); [lia|lra|lra]).
    rewrite C, Y, X, D.
    assert (Nc : rnd64 (7205759403792794 / 2 ^ 56) = 7205759403792794 / 2 ^ 56) by (apply (rd_id F64), lit64; [reflexivity|lia]).
    assert (Nd3 : rnd64 (5404319552844596 / 2 ^ 54) = 5404319552844596 / 2 ^ 54) by (apply (rd_id F64), lit64; [reflexivity|lia]).
    rewrite Nc, Nd3.
    assert (Q : rnd64 (8790463522673787 / 2 ^ 47 / (5494039701671116 / 2 ^ 43)) = 7205759403792795 / 2 ^ 56) by (apply rnd64_lit; [lia|lra|apply Rabs_def1; lra]).
    assert (Z : rnd64 (8790463522673787 / 2 ^ 47 / (5404319552844596 / 2 ^ 54)) = 7325386268894821 / 2 ^ 45) by (apply rnd64_lit; [lia|lra|apply Rabs_def1; lra]).
    rewrite Q, Z. rewrite (proj2 (Rltb_true (7205759403792794 / 2 ^ 56) (7205759403792795 / 2 ^ 56))) by lra. unfold h3. lra.
Qed.
Print Assumptions C109_below_hmin_3d_refuted.

(** a call that meets the hypotheses of the general theorems: single precision, 2D, wavelength sizing, with and without timestep *)
Example C109_case : usual (o_hmin low_opts) /\ usual (o_hmax low_opts) /\ usual (o_wl low_opts) /\ usual (o_freq low_opts) /\ usual dt3 /\ usual cr3 /\ usual h3 /\
  number F64 (o_hmin low_opts) /\ prepare_vp_f F32 low_opts (col2 1500 1500) = SzOk (col2 1500 1500) /\ (forall i j k, usual (av (col2 1500 1500) i j k)) /\
  o_pad_style low_opts <> PadLinearRamp /\ / 2 ^ 126 <= o_hmin low_opts.
Proof.
  assert (V : forall i j k, av (col2 1500 1500) i j k = 1500) by (intros; cbn; destruct (Nat.eqb i 0); reflexivity).
  unfold usual, dt3, cr3, h3. cbn [o_hmin o_hmax o_wl o_freq low_opts o_pad_style].
  split; [lra|]. split; [lra|]. split; [lra|]. split; [lra|]. split; [lra|]. split; [lra|]. split; [lra|].
  split; [apply (lit64 157286401 20); [reflexivity|lia]|]. split; [apply plain_prepare; [reflexivity|intros; rewrite V; lra]|].
  split; [intros; rewrite V; lra|]. split; [discriminate|]. apply (tiny_le _ 1); [lia|lra].
Qed.

(** ---- C110 ---- *)
Lemma int_of_mono x y : 0 <= x <= y -> (int_of x <= int_of y)%nat.
Proof.
  intros (P & L). destruct (int_of_spec x P) as (A & B). destruct (int_of_spec y ltac:(lra)) as (C & D).
  apply Nat.lt_succ_r. apply INR_lt. rewrite S_INR. lra.
Qed.
Lemma int_of_INR k : int_of (INR k) = k.
Proof.
  destruct (int_of_spec (INR k) (pos_INR k)) as (A & B). apply Nat.le_antisymm; [apply INR_le, A|]. apply Nat.lt_succ_r. apply INR_lt. rewrite S_INR. lra.
Qed.
(** the quotient that is truncated *)
Lemma quotient_f pad lo hi n : usual pad -> usual (hi - lo) -> (1 <= n)%nat -> INR n <= 2 ^ 20 ->
  let q := pad / ((hi - lo) / INR n) in let u := / 2 ^ 53 in (1 - 4 * u) * q <= rnd64 (pad / width_f lo hi n) <= (1 + 4 * u) * q /\ 0 < q.
Proof.
  intros P W N NB q u. unfold usual in *. assert (N1 : 1 <= INR n) by (change 1 with (INR 1); apply le_INR, N).
  assert (U : 0 < u <= / 2 ^ 24) by exact (ulp_small F64).
  destruct (rd_factor F64 F64 (hi - lo) (or_introl eq_refl)) as (f1 & F1 & E1); [apply (tiny_le _ 20); [lia|lra]|]. cbn [rd ulp_of] in E1, F1. fold u in F1.
  pose proof (half_double u f1 (hi - lo) (/ 2 ^ 20) (2 ^ 20) U F1 ltac:(lra) W) as Q1. rewrite <- E1 in Q1.
  assert (Q2 : / 2 ^ 41 <= rnd64 (hi - lo) / INR n <= 2 ^ 21).
  { split.
    - replace (/ 2 ^ 41) with (/ 2 ^ 20 / 2 * / 2 ^ 20) by lra. unfold Rdiv at 2. apply Rmult_le_compat; try lra. apply Rinv_le_contravar; lra.
    - apply (proj2 (div_le_iff (rnd64 (hi - lo)) (INR n) (2 ^ 21) ltac:(lra))). nra. }
  destruct (rd_factor F64 F64 (rnd64 (hi - lo) / INR n) (or_introl eq_refl)) as (f2 & F2 & E2); [apply (tiny_le _ 41); [lia|lra]|]. cbn [rd ulp_of] in E2, F2. fold u in F2.
  pose proof (half_double u f2 (rnd64 (hi - lo) / INR n) (/ 2 ^ 41) (2 ^ 21) U F2 ltac:(lra) Q2) as Q3. rewrite <- E2 in Q3. fold (width_f lo hi n) in E2, Q3.
  assert (Q4 : / 2 ^ 42 <= pad / width_f lo hi n).
  { replace (/ 2 ^ 42) with (/ 2 ^ 20 * / (2 * 2 ^ 21)) by lra. unfold Rdiv. apply Rmult_le_compat; try lra. apply Rinv_le_contravar; lra. }
  destruct (rd_factor F64 F64 (pad / width_f lo hi n) (or_introl eq_refl)) as (f3 & F3 & E3); [apply (tiny_le _ 42); [lia|exact Q4]|]. cbn [rd ulp_of] in E3, F3. fold u in F3.
  assert (QP : 0 < q) by (unfold q; apply Rdiv_lt_0_compat; [lra|apply Rdiv_lt_0_compat; lra]). split; [|exact QP].
  rewrite E3, E2, E1. pose proof (factor2 u f2 f1 U F2 F1) as F21. assert (0 < f1 /\ 0 < f2) as (p1' & p2') by lra.
  replace (f3 * (pad / (f2 * (f1 * (hi - lo) / INR n)))) with (f3 / (f2 * f1) * q) by (unfold q; field; repeat split; lra).
  assert (0 < u < 1 / 1000000) as US by lra. set (g := f2 * f1) in *. clearbody g q. clear - F21 F3 QP US.
  assert (g * / g = 1) by (apply Rinv_r; lra). assert (0 < / g) by (apply Rinv_0_lt_compat; lra).
  split; apply Rmult_le_compat_r; try lra; apply Rmult_le_reg_r with g; try lra; unfold Rdiv; rewrite (Rmult_assoc f3), (Rmult_comm (/ g)), H, Rmult_1_r; nra.
Qed.
(** C110: the number of layers added on a side is that of a width changed by 4 units in the last place at most ... *)
Theorem C110_layers : forall pad lo hi n, usual pad -> usual (hi - lo) -> (1 <= n)%nat -> INR n <= 2 ^ 20 ->
  let q := pad / ((hi - lo) / INR n) in let u := / 2 ^ 53 in
  (int_of ((1 - 4 * u) * q) <= layers_f pad lo hi n <= int_of ((1 + 4 * u) * q))%nat.
Proof.
  intros pad lo hi n P W N NB q u. destruct (quotient_f pad lo hi n P W N NB) as ((L & H) & QP). fold q u in L, H, QP.
  assert (U : 0 < u <= / 2 ^ 24) by exact (ulp_small F64). unfold layers_f.
  assert (0 <= (1 - 4 * u) * q) by (apply Rmult_le_pos; lra). split; apply int_of_mono; lra.
Qed.
Print Assumptions C110_layers.
(** ... so the exact number if the exact quotient is not within 4 units of a whole number, one more or less otherwise; ... *)
Theorem C110_layers_off_by_one : forall pad lo hi n, usual pad -> usual (hi - lo) -> (1 <= n)%nat -> INR n <= 2 ^ 20 ->
  let q := pad / ((hi - lo) / INR n) in let k := int_of q in let u := / 2 ^ 53 in
  (INR k <= (1 - 4 * u) * q -> (1 + 4 * u) * q < INR k + 1 -> layers_f pad lo hi n = k) /\
  (q <= 2 ^ 50 -> (k <= layers_f pad lo hi n + 1 /\ layers_f pad lo hi n <= k + 1)%nat).
Proof.
  intros pad lo hi n P W N NB q k u. destruct (quotient_f pad lo hi n P W N NB) as ((L & H) & QP). fold q u in L, H, QP.
  assert (U : 0 < u <= / 2 ^ 24) by exact (ulp_small F64). unfold layers_f. set (r := rnd64 (pad / width_f lo hi n)) in *.
  assert (RP : 0 <= r) by (assert (0 <= (1 - 4 * u) * q) by (apply Rmult_le_pos; lra); lra).
  destruct (int_of_spec r RP) as (R1 & R2). destruct (int_of_spec q ltac:(lra)) as (K1 & K2). fold k in K1, K2. split.
  - intros A B. apply Nat.le_antisymm; apply Nat.lt_succ_r; apply INR_lt; rewrite S_INR; lra.
  - intros Q. assert (D : 4 * u * q <= / 2) by (unfold u; apply Rle_trans with (4 * / 2 ^ 53 * 2 ^ 50); [apply Rmult_le_compat_l; lra|lra]).
    rewrite !Nat.add_1_r. split; apply Nat.lt_succ_r; apply INR_lt; rewrite !S_INR; lra.
Qed.
Print Assumptions C110_layers_off_by_one.
(** ... in particular a pad of k cell widths adds k layers when the widths are exact, ... *)
Theorem C110_whole_cells : forall k lo hi n, (1 <= n)%nat -> lo < hi -> number F64 (hi - lo) -> number F64 ((hi - lo) / INR n) -> number F64 (INR k) ->
  layers_f (INR k * ((hi - lo) / INR n)) lo hi n = k.
Proof.
  intros k lo hi n N L N1 N2 N3. assert (NP : 0 < INR n) by (apply lt_0_INR; lia).
  unfold layers_f, width_f. rewrite (id64 (hi - lo) N1), (id64 _ N2).
  assert (0 < (hi - lo) / INR n) by (apply Rdiv_lt_0_compat; lra).
  replace (INR k * ((hi - lo) / INR n) / ((hi - lo) / INR n)) with (INR k) by (field; repeat split; lra). rewrite (id64 _ N3). apply int_of_INR.
Qed.
Print Assumptions C110_whole_cells.
(** ... and k - 1 when they are not: 110 rows over 1000 m, a pad of 100 m = 11 rows; the box grows by the 100 m all the same. *)
Theorem C110_missing_layer_refuted : 100 = INR 11 * ((1000 - 0) / INR 110) /\ layers_f 100 0 1000 110 = 10%nat /\
  (forall ufilter ramp, exists o b vp a4 vp4, o_domain_pad o = 100 /\ b = [0; 1000; 0; 1000] /\ n0 vp = 110%nat /\
    get_sizing_f ufilter ramp F64 o b vp = SzOk (a4, vp4, [-100; 1000; -100; 1100]) /\ n0 a4 = 120%nat).
Proof.
  assert (I110 : INR 110 = 110) by (rewrite INR_IZR_INZ; reflexivity). assert (I11 : INR 11 = 11) by (rewrite INR_IZR_INZ; reflexivity).
  assert (NI : forall z, (Z.abs z < 2 ^ 24)%Z -> rnd64 (IZR z) = IZR z).
  { intros z Z. apply id64. replace (IZR z) with (IZR z / 2 ^ 0) by (cbn [pow]; lra). apply lit_number; [exact Z|lia]. }
  assert (LY : layers_f 100 0 1000 110 = 10%nat).
  { unfold layers_f, width_f. rewrite Rminus_0_r. rewrite (NI 1000%Z) by reflexivity. rewrite I110.
    rewrite (rnd64_lit 49 (1000 / 110) 5117726849284655); [|lia|lra|apply Rabs_def1; lra].
    rewrite (rnd64_lit 49 _ 6192449487634431); [|lia|lra|apply Rabs_def1; lra].
    destruct (int_of_spec (6192449487634431 / 2 ^ 49) ltac:(lra)) as (A & B). apply Nat.le_antisymm; apply Nat.lt_succ_r; apply INR_lt.
    - replace (INR 11) with 11 by exact (eq_sym I11). lra.
    - rewrite (S_INR (int_of _)). rewrite (INR_IZR_INZ 10). cbn [Z.of_nat Pos.of_succ_nat Pos.succ]. lra. }
  split; [rewrite I110, I11; lra|]. split; [exact LY|].
  intros ufilter ramp. exists (mkOpts (Some 1500) 150 10000 0 2 0 0 1 0 1 PadEdge 100 MS), [0; 1000; 0; 1000], (mkArr 2 110 110 1 (fun _ _ _ => 1500)).
  eexists. eexists. split; [reflexivity|]. split; [reflexivity|]. split; [reflexivity|]. split.
  - unfold get_sizing_f. rewrite plain_prepare; [|reflexivity|intros; cbn; lra]. cbn [sbind]. unfold bbox_dim. cbn [length Nat.eqb].
    unfold initial_size_f, size_type. cbn [o_wl o_grad o_freq o_hmin o_hmax o_dt o_cr_max o_space_order o_grade o_pad_style o_domain_pad].
    assert (Rgtb 0 0 = false) as -> by (unfold Rgtb; apply Rltb_false; lra). cbn [orb sbind].
    rewrite courant_off_f by auto. cbn [sbind]. unfold gradation_f. rewrite (proj2 (Reqb_true 0 0)) by reflexivity. cbn [sbind].
    unfold domain_pad_f, Rgtb. rewrite (proj2 (Rltb_false 100 0)), (proj2 (Rltb_true 0 100)) by lra.
    unfold pad_counts_f. cbn [bget nth n0 n1 n2 adim]. change (Nat.eqb 2 3) with false. cbv iota. rewrite LY. cbn [pad_it_f sbind pad_it].
    unfold padded_bbox_f. change (Nat.eqb 2 3) with false. cbv iota zeta. cbn [bget nth].
    replace (0 - 100) with (IZR (-100)) by lra. replace (1000 + 100) with (IZR 1100) by lra. rewrite !NI by reflexivity. reflexivity.
  - reflexivity.
Qed.
Print Assumptions C110_missing_layer_refuted.
(** exact widths: 100 rows over 1000 m *)
Example C110_case : layers_f 100 0 1000 100 = 10%nat /\ usual 100 /\ usual (1000 - 0) /\ INR 100 <= 2 ^ 20.
Proof.
  assert (I100 : INR 100 = 100) by (rewrite INR_IZR_INZ; reflexivity). assert (I10 : INR 10 = 10) by (rewrite INR_IZR_INZ; reflexivity).
  split; [|unfold usual; repeat split; lra].
  replace 100 with (INR 10 * ((1000 - 0) / INR 100)) by (rewrite I10, I100; lra).
  assert (NI : forall z, (Z.abs z < 2 ^ 24)%Z -> number F64 (IZR z)).
  { intros z Z. replace (IZR z) with (IZR z / 2 ^ 0) by (cbn [pow]; lra). apply lit_number; [exact Z|lia]. }
  apply C110_whole_cells; [lia|lra| | |].
  - replace (1000 - 0) with (IZR 1000) by lra. apply NI; reflexivity.
  - rewrite I100. replace ((1000 - 0) / 100) with (IZR 10) by lra. apply NI; reflexivity.
  - rewrite I10. apply NI; reflexivity.
Qed.
