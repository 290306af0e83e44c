(** C112: the gradient limiter computes its indices with 32-bit ints.  [limgrad_i]: the limiter with every integer operation checked, [None] when one
    of them overflows (undefined in C++). *)
From Coq Require Import List ZArith Reals Lia Lra.
From Flocq Require Import Core.
From Verif Require Import Model.Base Model.FastHJ Model.Int32 Spec.Grid Proofs.ListAux Proofs.GridIndex Proofs.Limgrad Proofs.LimgradMain Proofs.Int32Proofs Props.P01_limiter.
Import ListNotations.
Local Open Scope Z_scope.

(** at most 2^31 - 2 nodes: no operation overflows, whatever the field, the rounding and the number of sweeps (an int): the limiter is the one of C01-C06 *)
Theorem C112_same_below : forall rnd d0 d1 d2 elen dfdx imax f, 0 < d0 -> 0 < d1 -> 0 < d2 -> d0 * d1 * d2 <= 2 ^ 31 - 2 -> Z.of_nat imax <= 2 ^ 31 - 1 ->
  limgrad_i rnd d0 d1 d2 elen dfdx imax f = limgrad rnd d0 d1 d2 elen dfdx imax f.
Proof. intros. unfold limgrad_i, limgrad. rewrite limgrad_int by assumption. reflexivity. Qed.
Print Assumptions C112_same_below.
(** more nodes: some operation overflows, already when the size of the work array is computed if there are 2^31 nodes or more *)
Theorem C112_undefined_beyond : forall rnd d0 d1 d2 elen dfdx imax f, 0 < d0 -> 0 < d1 -> 0 < d2 -> 2 ^ 31 - 2 < d0 * d1 * d2 -> (0 < imax)%nat ->
  limgrad_i rnd d0 d1 d2 elen dfdx imax f = None.
Proof.
  intros. unfold limgrad_i. destruct (Z.eq_dec (d0 * d1 * d2) (2 ^ 31 - 1)) as [E|E]; [rewrite limgrad_mersenne|rewrite limgrad_large]; try assumption; try reflexivity. lia.
Qed.
Print Assumptions C112_undefined_beyond.
(** together, in binary64 and for the input of C01: the call is defined exactly up to 2^31 - 2 nodes, and then only lowers values and keeps the minimum *)
Theorem C112_exact : forall d0 d1 d2 elen dfdx imax f, limiter_input (generic_format radix2 (FLT_exp (-1074) 53)) d0 d1 d2 elen dfdx f ->
  (0 < imax)%nat -> Z.of_nat imax <= 2 ^ 31 - 1 ->
  ((exists out, limgrad_i rnd64 (Z.of_nat d0) (Z.of_nat d1) (Z.of_nat d2) elen dfdx imax f = Some out) <-> Z.of_nat (length f) <= 2 ^ 31 - 2) /\
  (forall out, limgrad_i rnd64 (Z.of_nat d0) (Z.of_nat d1) (Z.of_nat d2) elen dfdx imax f = Some out ->
    length out = length f /\ (forall i, (nth i out 0 <= nth i f 0)%R) /\ forall m, is_min f m -> is_min out m).
Proof.
  intros d0 d1 d2 elen dfdx imax f H M1 M2. pose proof H as (V & L & _). unfold valid_dims in V. rewrite L, !Nat2Z.inj_mul.
  destruct (C01_limgrad_only_refines_binary64 d0 d1 d2 elen dfdx imax f H) as (o & E & P).
  assert (D : (0 < Z.of_nat d0 /\ 0 < Z.of_nat d1 /\ 0 < Z.of_nat d2)) by lia. destruct D as (D0 & D1 & D2).
  destruct (Z.le_gt_cases (Z.of_nat d0 * Z.of_nat d1 * Z.of_nat d2) (2 ^ 31 - 2)) as [S|S].
  - rewrite C112_same_below by assumption. split; [split; [intros _; exact S|intros _; exists o; exact E]|]. intros out Q. rewrite E in Q. injection Q as <-. rewrite <- L. exact P.
  - rewrite C112_undefined_beyond by (assumption || lia). split; [split; [intros (x & X); discriminate|lia]|]. intros out Q. discriminate.
Qed.
Print Assumptions C112_exact.
(** a cube of 1290 nodes a side is below the limit, one of 1291 above; the input of C01 meets the hypotheses of the last theorem *)
Example C112_case : 1290 * 1290 * 1290 <= 2 ^ 31 - 2 /\ 2 ^ 31 - 2 < 1291 * 1291 * 1291 /\
  limiter_input (generic_format radix2 (FLT_exp (-1074) 53)) 2 2 1 1 (1/2) [5; 1; 7; 3]%R /\ Z.of_nat (length [5; 1; 7; 3]%R) <= 2 ^ 31 - 2.
Proof. split; [lia|]. split; [lia|]. split; [exact (proj1 C01_inputs_exist)|cbn; lia]. Qed.
