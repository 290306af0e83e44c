(** Rounding in the set operations. *)
From Coq Require Import List ZArith Reals Bool Lia Lra.
From Flocq Require Import Core.
From Verif Require Import Model.Base Model.FastHJ Model.SDF Model.Round Model.Sets64 Proofs.ListAux Proofs.SnapProofs Proofs.RoundProofs Proofs.LipProofs Proofs.SDFSets.
Import ListNotations.
Local Open Scope R_scope.

Lemma rnd64_opp x : rnd64 (- x) = - rnd64 x.
Proof. unfold rnd64. apply round_NE_opp. Qed.
Lemma er_s x S : / 2 ^ 400 <= S -> Rabs x <= 4 * S -> Rabs (rnd64 x - x) <= u * Rabs x + u * S / 16.
Proof.
  intros HS Hx. pose proof (err x) as E. assert (eta <= u * S / 16); [|lra]. apply Rle_trans with (u * / 2 ^ 400 / 16); [|assert (u * / 2 ^ 400 <= u * S) by (apply Rmult_le_compat_l; [unfold u; lra|exact HS]); lra].
  unfold u, eta, Rdiv. replace 9007199254740992 with (2 ^ 53) by ring. replace 16 with (2 ^ 4) by ring. rewrite <- !Rinv_mult, <- !pow_add. apply Rinv_le_contravar; [apply pow_lt; lra|apply Rle_pow; [lra|lia]].
Qed.
Lemma eta_k k : / 2 ^ 400 <= k -> eta <= u * (k * k) / 16.
Proof.
  intros HK. assert (P : 0 < / 2 ^ 400) by (apply Rinv_0_lt_compat, pow_lt; lra). assert (/ 2 ^ 400 * / 2 ^ 400 <= k * k) by (apply Rmult_le_compat; lra).
  apply Rle_trans with (u * (/ 2 ^ 400 * / 2 ^ 400) / 16); [|assert (u * (/ 2 ^ 400 * / 2 ^ 400) <= u * (k * k)) by (apply Rmult_le_compat_l; [unfold u; lra|assumption]); lra].
  unfold u, eta, Rdiv. replace 9007199254740992 with (2 ^ 53) by ring. replace 16 with (2 ^ 4) by ring. rewrite <- !Rinv_mult, <- !pow_add. apply Rinv_le_contravar; [apply pow_lt; lra|apply Rle_pow; [lra|lia]].
Qed.
Lemma Rmax_gap x y : Rabs (Rmax x 0 - Rmax y 0) <= Rabs (x - y).
Proof. unfold Rmax. destruct (Rle_dec x 0), (Rle_dec y 0); unfold Rabs; repeat match goal with |- context [Rcase_abs ?z] => destruct (Rcase_abs z) end; lra. Qed.
Lemma bump_err k S t t' : / 2 ^ 400 <= k <= S -> rnd64 k = k -> Rabs t <= 2 * S -> Rabs (t' - t) <= 3 * u * S ->
  let h := Rmax (k - Rabs t) 0 in let h' := blend64 k t' in
  Rabs (rnd64 (rnd64 (rnd64 (h' * h') * (1 / 4)) / k) - h * h * (1 / 4) / k) <= 8 * u * S.
Proof.
  intros HK RK Ht Ht' h h'. assert (P : 0 < / 2 ^ 400) by (apply Rinv_0_lt_compat, pow_lt; lra). assert (K0 : 0 < k) by lra. assert (S0 : 0 < S) by lra.
  assert (US : 0 < u * S) by (apply Rmult_lt_0_compat; [unfold u; lra|exact S0]). assert (US1 : u * S <= S / 1000) by (unfold u in *; lra).
  assert (UK : 0 < u * k) by (apply Rmult_lt_0_compat; [unfold u; lra|exact K0]). assert (UKS : u * k <= u * S) by (apply Rmult_le_compat_l; [unfold u; lra|lra]).
  pose proof (Rabs_triang_inv2 t' t) as TI. assert (TA : Rabs t' <= 3 * S). { pose proof (Rabs_triang t (t' - t)) as Q. replace (t + (t' - t)) with t' in Q by ring. lra. }
  pose proof (Rabs_pos t) as Nt. pose proof (Rabs_pos t') as Nt'. assert (KA : Rabs (k - Rabs t') <= 3 * S) by (apply Rabs_le; lra).
  pose proof (er_s (k - Rabs t') S ltac:(lra) ltac:(lra)) as E1. assert (u * Rabs (k - Rabs t') <= u * (3 * S)) by (apply Rmult_le_compat_l; [unfold u; lra|exact KA]).
  assert (HH : Rabs (h' - h) <= 7 * u * S).
  { unfold h, h', blend64. eapply Rle_trans; [apply Rmax_gap|]. pose proof (Rabs_triang (rnd64 (k - Rabs t') - (k - Rabs t')) (- (Rabs t' - Rabs t))) as Q. rewrite Rabs_Ropp in Q.
    replace (rnd64 (k - Rabs t') - (k - Rabs t') + - (Rabs t' - Rabs t)) with (rnd64 (k - Rabs t') - (k - Rabs t)) in Q by ring. lra. }
  assert (B : 0 <= h <= k) by (unfold h; split; [apply Rmax_r|apply Rmax_lub; lra]).
  assert (B' : 0 <= h' <= k). { unfold h', blend64. split; [apply Rmax_r|apply Rmax_lub; [|lra]]. rewrite <- RK at 2. apply rnd64_le. lra. }
  clearbody h h'. set (kk := k * k). assert (KK : 0 < kk) by (apply Rmult_lt_0_compat; exact K0). pose proof (eta_k k ltac:(lra)) as EK. fold kk in EK. assert (UKK : 0 < u * kk) by (apply Rmult_lt_0_compat; [unfold u; lra|exact KK]).
  assert (Q : 0 <= h' * h' <= kk) by (split; [apply Rmult_le_pos; lra|unfold kk; apply Rmult_le_compat; lra]). set (q := h' * h') in *.
  pose proof (err q) as E2. rewrite (Rabs_pos_eq q) in E2 by lra. assert (u * q <= u * kk) by (apply Rmult_le_compat_l; [unfold u; lra|lra]). pose proof (rnd64_pos q ltac:(lra)) as P1. set (p1 := rnd64 q) in *. apply Rabs_le_inv in E2.
  pose proof (err (p1 * (1 / 4))) as E3. rewrite (Rabs_pos_eq (p1 * (1 / 4))) in E3 by lra. assert (p1 <= 2 * kk) by (unfold u in *; lra). assert (u * (p1 * (1 / 4)) <= u * (2 * kk * (1 / 4))) by (apply Rmult_le_compat_l; [unfold u; lra|lra]).
  pose proof (rnd64_pos (p1 * (1 / 4)) ltac:(lra)) as P2. set (p2 := rnd64 (p1 * (1 / 4))) in *. apply Rabs_le_inv in E3.
  assert (D2 : Rabs (p2 - q * (1 / 4)) <= u * kk) by (apply Rabs_le; lra).
  assert (D3 : Rabs (p2 / k - q * (1 / 4) / k) <= u * k).
  { replace (p2 / k - q * (1 / 4) / k) with ((p2 - q * (1 / 4)) / k) by (field; lra). unfold Rdiv. rewrite Rabs_mult, (Rabs_pos_eq (/ k)) by (left; apply Rinv_0_lt_compat, K0).
    apply (Rmult_le_reg_r k); [exact K0|]. rewrite Rmult_assoc, Rinv_l, Rmult_1_r by lra. unfold kk in D2. lra. }
  assert (QK : 0 <= q * (1 / 4) / k <= k). { split; [apply Rmult_le_pos; [lra|left; apply Rinv_0_lt_compat, K0]|]. apply (Rmult_le_reg_r k); [exact K0|]. unfold Rdiv at 1. rewrite Rmult_assoc, Rinv_l, Rmult_1_r by lra. fold kk. lra. }
  assert (A2 : Rabs (p2 / k) <= 2 * k). { apply Rabs_le_inv in D3. apply Rabs_le. unfold u in *. lra. }
  pose proof (er_s (p2 / k) k ltac:(lra) ltac:(lra)) as E4. assert (u * Rabs (p2 / k) <= u * (2 * k)) by (apply Rmult_le_compat_l; [unfold u; lra|exact A2]).
  assert (D4 : Rabs (q * (1 / 4) / k - h * h * (1 / 4) / k) <= 7 / 2 * u * S).
  { replace (q * (1 / 4) / k - h * h * (1 / 4) / k) with ((h' - h) * ((h' + h) / (4 * k))) by (unfold q; field; lra). rewrite Rabs_mult.
    assert (W : 0 <= (h' + h) / (4 * k) <= 1 / 2). { split; [apply Rmult_le_pos; [lra|left; apply Rinv_0_lt_compat; lra]|]. apply (Rmult_le_reg_r (4 * k)); [lra|]. unfold Rdiv at 1. rewrite Rmult_assoc, Rinv_l, Rmult_1_r by lra. lra. }
    rewrite (Rabs_pos_eq (_ / _)) by apply W. replace (7 / 2 * u * S) with (7 * u * S * (1 / 2)) by field. apply Rmult_le_compat; [apply Rabs_pos|apply W|exact HH|apply W]. }
  apply Rabs_le_inv in D3, D4, E4. apply Rabs_le. lra.
Qed.
Lemma smooth_inter_err k S a b : / 2 ^ 400 <= k <= S -> rnd64 k = k -> Rabs a <= S -> Rabs b <= S ->
  Rabs (smooth_intersection64 k a b - smooth_intersection k a b) <= 12 * u * S /\ Rabs (smooth_intersection64 k a b) <= S + k / 4 + 12 * u * S.
Proof.
  intros HK RK Ha Hb. assert (P : 0 < / 2 ^ 400) by (apply Rinv_0_lt_compat, pow_lt; lra). assert (US : 0 < u * S) by (apply Rmult_lt_0_compat; [unfold u; lra|lra]).
  apply Rabs_le_inv in Ha, Hb. assert (T : Rabs (a - b) <= 2 * S) by (apply Rabs_le; lra).
  pose proof (er_s (a - b) S ltac:(lra) ltac:(lra)) as E1. assert (u * Rabs (a - b) <= u * (2 * S)) by (apply Rmult_le_compat_l; [unfold u; lra|exact T]).
  pose proof (bump_err k S (a - b) (rnd64 (a - b)) HK RK T ltac:(lra)) as B. cbv zeta in B. pose proof (smooth_inter_step k a b ltac:(lra)) as ST.
  unfold smooth_intersection64, smooth_intersection in *. cbv zeta in *. set (p := rnd64 (_ / k)) in *. set (e := Rmax (k - Rabs (a - b)) 0 * Rmax (k - Rabs (a - b)) 0 * (1 / 4) / k) in *. clearbody p e. apply Rabs_le_inv in B.
  assert (M : - S <= Rmax a b <= S) by (unfold Rmax; destruct (Rle_dec a b); lra). assert (A : Rabs (Rmax a b + p) <= 2 * S) by (apply Rabs_le; unfold u in *; lra).
  pose proof (er_s (Rmax a b + p) S ltac:(lra) ltac:(lra)) as E2. assert (u * Rabs (Rmax a b + p) <= u * (2 * S)) by (apply Rmult_le_compat_l; [unfold u; lra|exact A]). apply Rabs_le_inv in E2.
  split; apply Rabs_le; lra.
Qed.
Lemma smooth_union64_mirror k a b : smooth_union64 k a b = - smooth_intersection64 k (- a) (- b).
Proof.
  unfold smooth_union64, smooth_intersection64, blend64. cbv zeta. replace (- a - - b) with (- (a - b)) by ring. rewrite rnd64_opp, Rabs_Ropp, <- rnd64_opp. f_equal.
  assert (Rmax (- a) (- b) = - Rmin a b) as -> by (unfold Rmin, Rmax; destruct (Rle_dec (- a) (- b)), (Rle_dec a b); lra). ring.
Qed.
Lemma smooth_union_err k S a b : / 2 ^ 400 <= k <= S -> rnd64 k = k -> Rabs a <= S -> Rabs b <= S ->
  Rabs (smooth_union64 k a b - smooth_union k a b) <= 12 * u * S /\ Rabs (smooth_union64 k a b) <= S + k / 4 + 12 * u * S.
Proof.
  intros HK RK Ha Hb. rewrite <- Rabs_Ropp in Ha, Hb. destruct (smooth_inter_err k S _ _ HK RK Ha Hb) as [E M]. rewrite smooth_union64_mirror. rewrite smax_min, !Ropp_involutive in E. split; [|rewrite Rabs_Ropp; exact M].
  rewrite <- Rabs_Ropp. replace (- (- smooth_intersection64 k (- a) (- b) - smooth_union k a b)) with (smooth_intersection64 k (- a) (- b) - - smooth_union k a b) by ring. exact E.
Qed.
Lemma smooth_diff_err k S a b : / 2 ^ 400 <= k <= S -> rnd64 k = k -> Rabs a <= S -> Rabs b <= S ->
  Rabs (smooth_difference64 k a b - smooth_difference k a b) <= 12 * u * S /\ Rabs (smooth_difference64 k a b) <= S + k / 4 + 12 * u * S.
Proof. intros HK RK Ha Hb. rewrite <- Rabs_Ropp in Ha. exact (smooth_inter_err k S (- a) b HK RK Ha Hb). Qed.
Section Fold.
Variables (f g : R -> R -> R) (k M e : R).
Hypothesis KM : k <= M.
Hypothesis M0 : 0 < M.
Hypothesis slope : forall a b c d m, Rabs (a - c) <= m -> Rabs (b - d) <= m -> Rabs (f a b - f c d) <= m.
Hypothesis step : forall S a b, k <= S -> Rabs a <= S -> Rabs b <= S -> Rabs (g a b - f a b) <= 12 * u * S /\ Rabs (g a b) <= S + k / 4 + 12 * u * S.
Lemma fold_err l' : forall l j s' s, Forall2 (fun x y => Rabs (x - y) <= e) l' l -> Forall (fun x => Rabs x <= M) l' -> INR (j + length l') <= 2 ^ 40 ->
  Rabs s' <= (1 + INR j) * M -> Rabs (s' - s) <= e + 6 * u * (INR j * (INR j + 1)) * M ->
  Rabs (fold_left g l' s' - fold_left f l s) <= e + 6 * u * (INR (j + length l') * (INR (j + length l') + 1)) * M.
Proof.
  induction l' as [|b' l' IH]; intros l j s' s H F HL HA HE; inversion H as [|? b ? m Hb Hl]; subst; cbn [fold_left length].
  - rewrite Nat.add_0_r. exact HE.
  - inversion F as [|? ? Fb Fl]; subst. cbn [length] in HL. rewrite Nat.add_succ_r in HL |- *. change (Datatypes.S (j + length l')) with (Datatypes.S j + length l')%nat in HL |- *.
    pose proof (pos_INR j) as J0. pose proof (pos_INR (length l')) as L0. assert (JB : INR j <= 2 ^ 40). { rewrite plus_INR, S_INR in HL. lra. } replace (2 ^ 40) with 1099511627776 in JB by ring.
    assert (JM : 0 <= INR j * M) by (apply Rmult_le_pos; lra). assert (JMB : INR j * M <= 1099511627776 * M) by (apply Rmult_le_compat_r; lra).
    assert (EE : e <= e + 6 * u * (INR j * (INR j + 1)) * M). { assert (0 <= 6 * u * (INR j * (INR j + 1)) * M); [|lra]. apply Rmult_le_pos; [apply Rmult_le_pos; [unfold u; lra|apply Rmult_le_pos; lra]|lra]. }
    destruct (step ((1 + INR j) * M) s' b' ltac:(lra) HA ltac:(lra)) as [SE SA]. apply IH; try assumption.
    + rewrite S_INR. eapply Rle_trans; [exact SA|]. unfold u. lra.
    + rewrite S_INR. pose proof (slope s' b' s b _ HE ltac:(lra)) as SL. pose proof (Rabs_triang (g s' b' - f s' b') (f s' b' - f s b)) as T. replace (g s' b' - f s' b' + (f s' b' - f s b)) with (g s' b' - f s b) in T by ring.
      replace (6 * u * ((INR j + 1) * (INR j + 1 + 1)) * M) with (6 * u * (INR j * (INR j + 1)) * M + 12 * u * ((1 + INR j) * M)) by ring. lra.
Qed.
Lemma reduce_err l' l : l' <> [] -> Forall2 (fun x y => Rabs (x - y) <= e) l' l -> Forall (fun x => Rabs x <= M) l' -> INR (length l') <= 2 ^ 40 ->
  Rabs (reduce_ g l' - reduce_ f l) <= e + / 2 ^ 50 * (INR (length l') * (INR (length l') - 1)) * M.
Proof.
  intros N H F HL. destruct H as [|a' a l' l Ha Hl]; [contradiction|]. clear N. inversion F as [|? ? Fa Fl]; subst. cbn [reduce_]. cbn [length] in HL |- *. rewrite S_INR in HL |- *. pose proof (pos_INR (length l')) as L0.
  pose proof (fold_err l' l 0 a' a Hl Fl) as E. cbn [Nat.add INR] in E. specialize (E ltac:(lra) ltac:(lra) ltac:(lra)). eapply Rle_trans; [exact E|]. apply Rplus_le_compat_l. apply Rmult_le_compat_r; [lra|].
  replace ((INR (length l') + 1) * (INR (length l') + 1 - 1)) with (INR (length l') * (INR (length l') + 1)) by ring. apply Rmult_le_compat_r; [apply Rmult_le_pos; lra|]. unfold u. replace (2 ^ 50) with 1125899906842624 by ring. lra.
Qed.
End Fold.
Lemma set_init_eval ev ds d : set_init ev ds = Ok d -> ds <> [] /\ d_eval d = ev ds.
Proof.
  unfold set_init. destruct ds as [|d0 ds]; [discriminate|]. unfold dims_guard, rbind. destruct (set_bbox _ _ _); [|discriminate]. intros H. injection H as <-. split; [discriminate|reflexivity].
Qed.
