(** C04 in binary64: the limiter converges, and the cap of 10000 sweeps can be too small. *)
From Coq Require Import List ZArith Reals Lia Lra.
From Flocq Require Import Core.
From Verif Require Import Model.Base Model.FastHJ Spec.Grid Proofs.ListAux Proofs.GridIndex Proofs.LimgradMain Proofs.SnapProofs Proofs.OrientProofs Proofs.Limgrad64 Props.P01_limiter Props.P35_orient.
Import ListNotations.
Local Open Scope R_scope.

(** every positive field of doubles *)
Theorem C04_binary64_converges : forall d0 d1 d2 elen dfdx imax f m,
  valid_dims d0 d1 d2 -> length f = (d0 * d1 * d2)%nat -> Forall fmt64 f -> (forall x, In x f -> 0 < x) -> 0 <= elen -> 0 <= dfdx -> is_min f m ->
  INR imax >= 2 + (rsum f - INR (length f) * m) / (m * / 2 ^ 53) ->
  limgrad_converged rnd64 (Z.of_nat d0) (Z.of_nat d1) (Z.of_nat d2) elen dfdx imax f.
Proof. exact terminates64. Qed.
Print Assumptions C04_binary64_converges.
(** fields whose largest value is at most 2^30 times the smallest: a bound near the one of exact arithmetic *)
Theorem C04_binary64_usual_sizes : forall d0 d1 d2 elen dfdx imax f m,
  valid_dims d0 d1 d2 -> length f = (d0 * d1 * d2)%nat -> Forall fmt64 f -> / 2 ^ 1000 <= m -> 0 <= elen -> 0 <= dfdx -> is_min f m ->
  (forall x, In x f -> x <= 2 ^ 30 * m) ->
  INR imax >= 2 + (rsum f - INR (length f) * m) / (m * / 2 ^ 16) ->
  limgrad_converged rnd64 (Z.of_nat d0) (Z.of_nat d1) (Z.of_nat d2) elen dfdx imax f.
Proof. exact terminates64_usual. Qed.
Print Assumptions C04_binary64_usual_sizes.
Lemma int_fmt n : (Z.of_nat n < 2 ^ 53)%Z -> fmt64 (INR n).
Proof. intro H. rewrite INR_IZR_INZ. replace (IZR (Z.of_nat n)) with (IZR (Z.of_nat n) * bpow radix2 0) by (cbn; lra). apply fmt_int; lia. Qed.
(** and for every cap there is a positive field of doubles that is returned ungraded *)
Theorem C04_binary64_cap_refuted : forall imax, (Z.of_nat (2 * imax + 2) <= 2 ^ 31)%Z ->
  exists f out m, let N := (2 * imax + 2)%nat in
    length f = N /\ (forall x, In x f -> 0 < x) /\ is_min f m /\
    limgrad rnd64 (Z.of_nat N) 1 1 1 1 imax f = Some out /\ ~ graded N 1 1 (1 * 1 + m * sqrt (1 / 10 ^ 9)) out.
Proof.
  intros imax H. apply (cap_refuted_r rnd64 fmt64 imax rnd64_is_rounding); [| exact H]. intros n Hn. apply int_fmt. lia.
Qed.
Print Assumptions C04_binary64_cap_refuted.
Example C04_binary64_case : exists imax, limgrad_converged rnd64 (Z.of_nat 2) (Z.of_nat 2) (Z.of_nat 1) 1 (1/2) imax [5; 1; 7; 3].
Proof.
  destruct (INR_above (2 + (rsum [5; 1; 7; 3] - INR (length [5; 1; 7; 3]) * 1) / (1 * / 2 ^ 16))) as [n Hn]. exists n.
  assert (I : forall k, (k <= 7)%nat -> fmt64 (INR k)) by (intros k Hk; apply int_fmt; lia).
  apply (C04_binary64_usual_sizes 2 2 1 1 (1/2) n [5; 1; 7; 3] 1); [unfold valid_dims; lia | reflexivity | | | lra | lra | | | lra].
  - replace 5 with (INR 5) by (cbn; lra). replace 7 with (INR 7) by (cbn; lra). replace 3 with (INR 3) by (cbn; lra). change 1 with (INR 1).
    repeat constructor; apply I; lia.
  - rewrite <- Rinv_1. apply Rinv_le_contravar; [lra|]. apply pow_R1_Rle. lra.
  - split; [cbn; tauto|]. intros x [<- | [<- | [<- | [<- | []]]]]; lra.
  - intros x [<- | [<- | [<- | [<- | []]]]]; lra.
Qed.
