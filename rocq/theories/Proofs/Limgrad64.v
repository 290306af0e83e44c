(** Termination of the gradient limiter under rounding. *)
From Coq Require Import List ZArith Reals Lia Lra.
From Flocq Require Import Core.
From Verif Require Import Model.Base Model.FastHJ Spec.Grid Proofs.ListAux Proofs.GridIndex Proofs.Limgrad Proofs.LimgradMain Proofs.SnapProofs Proofs.RoundProofs Proofs.OrientProofs.
Import ListNotations.
Local Open Scope R_scope.

Lemma upd_in (l : list R) i y x : In x (upd l i y) -> x = y \/ In x l.
Proof.
  revert i. induction l as [|a l IH]; intros [|i] H; cbn in *; try tauto; destruct H as [H | H]; auto. destruct (IH i H); auto.
Qed.

Section D.
Variable rnd : R -> R.
Variable F : R -> Prop.
Hypothesis Hr : is_rounding rnd F.
Variables m M delta ftol : R.
Hypothesis HT : 0 <= ftol.
Hypothesis HD : forall y x, F y -> F x -> m <= y -> x <= M -> rnd (y + ftol) < x -> delta <= x - y.

Lemma steps_sum_r d0 d1 d2 g n s s' : 0 <= g -> steps rnd F d0 d1 d2 g ftol n s s' -> (forall x, In x (fld s) -> m <= x <= M) ->
  (forall x, In x (fld s') -> m <= x <= M) /\ rsum (fld s') <= rsum (fld s) - INR n * delta.
Proof.
  intros G St. induction St as [s|n s iter v u s' Hw He Hv Hs IH]; intro B; [split; [exact B | cbn; lra]|].
  destruct (edge_lt _ _ _ _ _ He) as [Lu Lv]. destruct Hw as (L & _ & HF). 
  set (fu := nth u (fld s) 0) in *. set (fv := nth v (fld s) 0).
  assert (Iu : In fu (fld s)) by (apply nth_In; rewrite L; exact Lu). assert (Iv : In fv (fld s)) by (apply nth_In; rewrite L; exact Lv).
  rewrite Forall_forall in HF. pose proof (HF _ Iu) as Fu. pose proof (HF _ Iv) as Fv. pose proof (B _ Iu) as Bu. pose proof (B _ Iv) as Bv.
  set (y := rnd (fu + g)). assert (Y : fu <= y) by (unfold y; destruct Hr as (Mo & _ & Id & _); rewrite <- (Id fu Fu) at 1; apply Mo; lra).
  assert (Fy : F y) by (unfold y; apply Hr). destruct Hv as [V1 V2]. unfold S2, T in V2. fold fu fv y in V2.
  assert (DD : delta <= fv - y) by (apply HD; try assumption; lra).
  assert (YM : y <= M).
  { destruct Hr as (Mo & _ & Id & _). apply Rle_trans with (rnd (y + ftol)); [rewrite <- (Id y Fy) at 1; apply Mo; lra | lra]. }
  unfold upd_state in IH; cbn [fld] in IH. change (Limgrad.T rnd g fu) with y in IH.
  destruct IH as [B' S'].
  - intros x Hx. apply upd_in in Hx. destruct Hx as [-> | Hx]; [change (m <= y <= M); lra | apply B, Hx].
  - split; [exact B'|]. rewrite rsum_upd in S' by (rewrite L; exact Lv). rewrite S_INR. fold fv in S'. change (Limgrad.T rnd g (nth u (fld s) 0)) with y in S'. lra.
Qed.

Lemma terminates_r d0 d1 d2 elen dfdx imax f :
  valid_dims d0 d1 d2 -> length f = (d0 * d1 * d2)%nat -> Forall F f -> (forall x, In x f -> 0 < x) -> 0 <= elen -> 0 <= dfdx ->
  (forall x, In x f -> m <= x <= M) -> ftol_of rnd f = ftol -> 0 < delta ->
  INR imax >= 2 + (rsum f - INR (length f) * m) / delta ->
  limgrad_converged rnd (Z.of_nat d0) (Z.of_nat d1) (Z.of_nat d2) elen dfdx imax f.
Proof.
  intros Hd HL HF Hp He Hdf Hm Et Dp Hmax.
  destruct (limgrad_run rnd F Hr d0 d1 d2 elen dfdx imax f Hd HL HF (fun x Hx => Rlt_le _ _ (Hp x Hx)) He Hdf)
    as (n & act' & out & b & E & St & W0 & W1 & _ & B & Hg & Ht).
  destruct b; [exists out; exact E | exfalso]. specialize (B eq_refl). rewrite Et in St.
  destruct (steps_sum_r d0 d1 d2 _ n _ _ Hg St) as [Bo So]; cbn [fld] in *; [exact Hm|].
  assert (Hlow : INR (length out) * m <= rsum out) by (apply rsum_lower; intros x Hx; apply Bo, Hx).
  assert (HLo : length out = length f) by (destruct W1 as [W1 _]; cbn [fld] in W1; lia). rewrite HLo in Hlow.
  apply le_INR in B. rewrite plus_INR in B. cbn in B.
  assert (Hq : (rsum f - INR (length f) * m) / delta >= INR n).
  { apply Rle_ge, Rmult_le_reg_r with delta; [exact Dp|]. unfold Rdiv. rewrite Rmult_assoc, Rinv_l by lra. lra. }
  lra.
Qed.
End D.

Lemma gap64 y x m : fmt64 y -> fmt64 x -> 0 < m -> m <= y -> y < x -> m * / 2 ^ 53 <= x - y.
Proof.
  intros Fy Fx P A B. assert (PP : Prec_gt_0 53) by (unfold Prec_gt_0; lia).
  assert (S : succ radix2 (FLT_exp (-1074) 53) y <= x) by (apply succ_le_lt; [apply FLT_exp_valid; exact PP | exact Fy | exact Fx | exact B]).
  rewrite succ_eq_pos in S by lra. pose proof (ulp_FLT_gt radix2 (-1074) 53 y) as U. rewrite Rabs_right in U by lra.
  change (bpow radix2 (- (53))) with (/ 9007199254740992) in U. replace (/ 2 ^ 53) with (/ 9007199254740992) by (f_equal; ring). lra.
Qed.
Lemma ftol64_bounds f m : is_min f m -> 0 < m -> 0 <= ftol_of rnd64 f.
Proof.
  intros Hm P. unfold ftol_of. apply rnd64_pos. apply Rmult_le_pos; [| apply rnd64_pos, sqrt_pos].
  assert (min_list f = m) as ->; [| lra]. eapply is_min_unique; [apply is_min_min_list | exact Hm]. intros ->. destruct Hm as [[] _].
Qed.
Lemma terminates64 d0 d1 d2 elen dfdx imax f m :
  valid_dims d0 d1 d2 -> length f = (d0 * d1 * d2)%nat -> Forall fmt64 f -> (forall x, In x f -> 0 < x) -> 0 <= elen -> 0 <= dfdx -> is_min f m ->
  INR imax >= 2 + (rsum f - INR (length f) * m) / (m * / 2 ^ 53) ->
  limgrad_converged rnd64 (Z.of_nat d0) (Z.of_nat d1) (Z.of_nat d2) elen dfdx imax f.
Proof.
  intros Hd HL HF Hp He Hdf Hm Hmax. assert (P : 0 < m) by (apply Hp, Hm).
  set (M := max_list f). pose proof (ftol64_bounds f m Hm P) as T0.
  refine (terminates_r rnd64 fmt64 rnd64_is_rounding m M (m * / 2 ^ 53) (ftol_of rnd64 f) T0 _ d0 d1 d2 elen dfdx imax f Hd HL HF Hp He Hdf _ eq_refl _ Hmax).
  - intros y x Fy Fx A B C. apply gap64; try assumption. eapply Rle_lt_trans; [| exact C]. destruct rnd64_is_rounding as (Mo & _ & Id & _). rewrite <- (Id y Fy) at 1. apply Mo. lra.
  - intros x Hx. split; [apply Hm, Hx | apply max_list_ge, Hx].
  - apply Rmult_lt_0_compat; [exact P | apply Rinv_0_lt_compat, pow_lt; lra].
Qed.
Lemma root_tol : / 32768 <= rnd64 (sqrt (1 / 10 ^ 9)).
Proof.
  replace (/ 32768) with (rnd64 (/ 32768)).
  - apply rnd64_le. apply Rsqr_incr_0_var; [| apply sqrt_pos]. unfold Rsqr. rewrite sqrt_sqrt by lra. lra.
  - change (/ 32768) with (bpow radix2 (-15)). apply round_generic; [typeclasses eauto|]. apply generic_format_bpow. unfold FLT_exp. lia.
Qed.
(** sizes within a factor of 2^30 of each other *)
Lemma terminates64_usual d0 d1 d2 elen dfdx imax f m :
  valid_dims d0 d1 d2 -> length f = (d0 * d1 * d2)%nat -> Forall fmt64 f -> / 2 ^ 1000 <= m -> 0 <= elen -> 0 <= dfdx -> is_min f m ->
  (forall x, In x f -> x <= 2 ^ 30 * m) ->
  INR imax >= 2 + (rsum f - INR (length f) * m) / (m * / 2 ^ 16) ->
  limgrad_converged rnd64 (Z.of_nat d0) (Z.of_nat d1) (Z.of_nat d2) elen dfdx imax f.
Proof.
  intros Hd HL HF Hs He Hdf Hm HM Hmax. assert (P : 0 < m) by (eapply Rlt_le_trans; [| exact Hs]; apply Rinv_0_lt_compat, pow_lt; lra).
  pose proof (ftol64_bounds f m Hm P) as T0.
  assert (ES : eta <= / 2 ^ 75 * m).
  { unfold eta. apply Rle_trans with (/ 2 ^ 75 * / 2 ^ 1000); [rewrite <- Rinv_mult, <- pow_add; apply Req_le; f_equal | apply Rmult_le_compat_l; [apply Rlt_le, Rinv_0_lt_compat, pow_lt; lra | exact Hs]]. }
  assert (U : u = / 9007199254740992) by reflexivity.
  assert (TB : / 40000 * m <= ftol_of rnd64 f).
  { unfold ftol_of. assert (min_list f = m) as ->. { eapply is_min_unique; [apply is_min_min_list | exact Hm]. intros ->. destruct Hm as [[] _]. }
    pose proof root_tol as RT. set (r := rnd64 (sqrt _)) in *. assert (/ 32768 * m <= m * r) by (rewrite Rmult_comm; apply Rmult_le_compat_l; lra).
    assert (0 <= / 32768 * m) by lra. pose proof (err (m * r)) as E. rewrite (Rabs_right (m * r)) in E by lra. apply Rabs_le_inv in E. rewrite U in E. lra. }
  set (ft := ftol_of rnd64 f) in *.
  refine (terminates_r rnd64 fmt64 rnd64_is_rounding m (2 ^ 30 * m) (m * / 2 ^ 16) ft T0 _ d0 d1 d2 elen dfdx imax f Hd HL HF _ He Hdf _ eq_refl _ Hmax).
  - intros y x Fy Fx A B C. pose proof (err (y + ft)) as E. rewrite (Rabs_right (y + ft)) in E by lra. apply Rabs_le_inv in E.
    assert (Y : y <= 2 ^ 30 * m).
    { destruct rnd64_is_rounding as (Mo & _ & Id & _). apply Rle_trans with (rnd64 (y + ft)); [rewrite <- (Id y Fy) at 1; apply Mo; lra | lra]. }
    rewrite U in E. lra.
  - intros x Hx. eapply Rlt_le_trans; [exact P | apply Hm, Hx].
  - intros x Hx. split; [apply Hm, Hx | apply HM, Hx].
  - apply Rmult_lt_0_compat; [exact P | apply Rinv_0_lt_compat, pow_lt; lra].
Qed.
