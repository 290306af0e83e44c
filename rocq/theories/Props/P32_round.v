(** C98: rounding in the Disk and Ball signed distances. *)
From Coq Require Import List ZArith Reals Lia Lra.
From Flocq Require Import Core.
From Verif Require Import Model.Base Model.FastHJ Model.SDF Model.Round Spec.Geom Proofs.SnapProofs Proofs.RoundProofs.
Import ListNotations.
Local Open Scope R_scope.

(** what one evaluation in double precision may be off by *)
Definition blur (centre p : pt) (r : R) : R := / 2 ^ 48 * (edist p centre + Rabs r) + / 2 ^ 533.

(** the computed value, whatever the point, centre and radius *)
Theorem C98_disk xc yc r x y : Rabs (ddisk64 xc yc r [x; y] - (edist [x; y] [xc; yc] - r)) <= blur [xc; yc] [x; y] r.
Proof. exact (disk_err xc yc r x y). Qed.
Theorem C98_ball xc yc zc r x y z : Rabs (dball64 xc yc zc r [x; y; z] - (edist [x; y; z] [xc; yc; zc] - r)) <= blur [xc; yc; zc] [x; y; z] r.
Proof. exact (ball_err xc yc zc r x y z). Qed.

(** a point further from the surface than that is put on the right side *)
Theorem C98_side_disk xc yc r x y : blur [xc; yc] [x; y] r < Rabs (edist [x; y] [xc; yc] - r) ->
  (ddisk64 xc yc r [x; y] < 0 <-> edist [x; y] [xc; yc] < r) /\ (0 < ddisk64 xc yc r [x; y] <-> r < edist [x; y] [xc; yc]).
Proof.
  intro H. pose proof (C98_disk xc yc r x y) as E. apply Rabs_le_inv in E. unfold Rabs in H at 1. destruct (Rcase_abs _) in H; split; split; intros; lra.
Qed.
Theorem C98_side_ball xc yc zc r x y z : blur [xc; yc; zc] [x; y; z] r < Rabs (edist [x; y; z] [xc; yc; zc] - r) ->
  (dball64 xc yc zc r [x; y; z] < 0 <-> edist [x; y; z] [xc; yc; zc] < r) /\ (0 < dball64 xc yc zc r [x; y; z] <-> r < edist [x; y; z] [xc; yc; zc]).
Proof.
  intro H. pose proof (C98_ball xc yc zc r x y z) as E. apply Rabs_le_inv in E. unfold Rabs in H at 1. destruct (Rcase_abs _) in H; split; split; intros; lra.
Qed.

Lemma fmt_bpow e : (-1074 <= e)%Z -> rnd64 (bpow radix2 e) = bpow radix2 e.
Proof. intro E. unfold rnd64. apply round_generic; [typeclasses eauto|]. apply generic_format_bpow. unfold FLT_exp. lia. Qed.
Lemma near_one x : 1 <= x -> x < 1 + / 9007199254740992 -> rnd64 x = 1.
Proof.
  intros A B. apply Rle_antisym.
  - unfold rnd64. apply round_N_le_midp; [apply FLT_exp_valid; unfold Prec_gt_0; lia | |].
    + change 1 with (bpow radix2 0). apply generic_format_bpow. unfold FLT_exp. lia.
    + rewrite succ_eq_pos by lra. change 1 with (bpow radix2 0) at 2 3. rewrite ulp_bpow. change (FLT_exp (-1074) 53 (0 + 1)) with (-52)%Z.
      change (bpow radix2 0) with 1. change (bpow radix2 (-52)) with (/ 4503599627370496). lra.
  - change 1 with (bpow radix2 0) at 1. rewrite <- (fmt_bpow 0) by lia. apply rnd64_le. exact A.
Qed.
(** within that distance the side may be wrong: all these points are outside the unit disk and all evaluate to 0 *)
Theorem C98_outside_unnoticed_refuted : forall t, t <> 0 -> Rabs t <= / 2 ^ 27 -> 0 < edist [1; t] [0; 0] - 1 /\ ddisk64 0 0 1 [1; t] = 0.
Proof.
  intros t N B. replace (/ 2 ^ 27) with (bpow radix2 (-27)) in B by (change (bpow radix2 (-27)) with (/ 134217728); f_equal; ring). split.
  - unfold edist. cbn [sqdist]. assert (0 < t * t) by (destruct (Rtotal_order t 0) as [H | [H | H]]; [| tauto |]; nra).
    assert (1 < sqrt ((1 - 0) ^ 2 + ((t - 0) ^ 2 + 0))); [| lra]. rewrite <- sqrt_1 at 1. apply sqrt_lt_1; nra.
  - unfold ddisk64, sqdiff64. replace (1 - 0) with 1 by ring. replace (t - 0) with t by ring. replace (rnd64 1) with 1 by (symmetry; apply near_one; lra).
    replace (rnd64 (1 * 1)) with 1 by (symmetry; apply near_one; lra).
    assert (D : Rabs (rnd64 t) <= bpow radix2 (-27)).
    { apply Rabs_le_inv in B. apply Rabs_le. split.
      - rewrite <- (fmt_bpow (-27)) by lia. unfold rnd64 at 1. rewrite <- round_NE_opp. apply rnd64_le. lra.
      - rewrite <- (fmt_bpow (-27)) by lia. apply rnd64_le. lra. }
    set (d := rnd64 t) in *. assert (S : 0 <= rnd64 (d * d) <= bpow radix2 (-54)).
    { split; [apply rnd64_pos; pose proof (Rle_0_sqr d); unfold Rsqr in *; lra|]. rewrite <- (fmt_bpow (-54)) by lia. apply rnd64_le.
      replace (d * d) with (Rabs d * Rabs d) by (rewrite <- Rabs_mult; apply Rabs_right; pose proof (Rle_0_sqr d); unfold Rsqr in *; lra).
      change (-54)%Z with (-27 + -27)%Z. rewrite bpow_plus. apply Rmult_le_compat; auto using Rabs_pos. }
    change (bpow radix2 (-54)) with (/ 18014398509481984) in S.
    rewrite (near_one (1 + rnd64 (d * d))) by lra. rewrite sqrt_1. rewrite (near_one 1) by lra. replace (1 - 1) with 0 by ring. apply rnd64_0.
Qed.

Example C98_case : blur [0; 0] [3; 4] 2 < Rabs (edist [3; 4] [0; 0] - 2) /\ blur [0; 0] [3; 4] 2 < / 2 ^ 45.
Proof.
  assert (E : edist [3; 4] [0; 0] = 5). { unfold edist. cbn [sqdist]. replace ((3 - 0) ^ 2 + ((4 - 0) ^ 2 + 0)) with (5 * 5) by ring. apply sqrt_square. lra. }
  assert (B : blur [0; 0] [3; 4] 2 < / 2 ^ 45).
  { unfold blur. rewrite E, (Rabs_right 2) by lra. assert (/ 2 ^ 533 < / 2 ^ 60) by (apply Rinv_lt_contravar; [apply Rmult_lt_0_compat; apply pow_lt; lra | apply Rlt_pow; [lra | lia]]).
    replace (/ 2 ^ 48) with (/ 281474976710656) by (f_equal; ring). replace (/ 2 ^ 45) with (/ 35184372088832) by (f_equal; ring).
    replace (/ 2 ^ 60) with (/ 1152921504606846976) in H by (f_equal; ring). lra. }
  split; [|exact B]. rewrite E. replace (5 - 2) with 3 by ring. rewrite (Rabs_right 3) by lra. eapply Rlt_trans; [exact B|].
  replace (/ 2 ^ 45) with (/ 35184372088832) by (f_equal; ring). lra.
Qed.
Print Assumptions C98_disk.
Print Assumptions C98_ball.
Print Assumptions C98_side_disk.
Print Assumptions C98_side_ball.
Print Assumptions C98_outside_unnoticed_refuted.
