(** Specification vocabulary for fields on a d0 x d1 x d2 grid stored column-major
    (first index fastest), independent of the limiter's code. *)
From Coq Require Import List ZArith Reals Lia.
Import ListNotations.

(** Zero-based triple of subscripts. *)
Definition node := (nat * nat * nat)%type.
Definition in_grid (d0 d1 d2 : nat) (p : node) : Prop :=
  let '(i, j, k) := p in i < d0 /\ j < d1 /\ k < d2.
(** Position in the flattened array. *)
Definition pos (d0 d1 : nat) (p : node) : nat := let '(i, j, k) := p in i + d0 * (j + d1 * k).
(** Value of the field at a node. *)
Definition val (d0 d1 : nat) (f : list R) (p : node) : R := nth (pos d0 d1 p) f 0%R.

Definition adist (a b : nat) : nat := (a - b) + (b - a).
(** Manhattan (grid) distance. *)
Definition gdist (p q : node) : nat :=
  let '(i, j, k) := p in let '(i', j', k') := q in adist i i' + adist j j' + adist k k'.
(** Adjacent along one axis. *)
Definition adjacent (p q : node) : Prop := gdist p q = 1.

(** Adjacent values differ by at most [tau]. *)
Definition graded (d0 d1 d2 : nat) (tau : R) (f : list R) : Prop :=
  forall p q, in_grid d0 d1 d2 p -> in_grid d0 d1 d2 q -> adjacent p q ->
  (Rabs (val d0 d1 f p - val d0 d1 f q) <= tau)%R.

(** [m] is the smallest value of the field. *)
Definition is_min (f : list R) (m : R) : Prop := In m f /\ forall x, In x f -> (m <= x)%R.

(** A rounding: monotone and the identity on a set of representable numbers that
    contains every rounded number and zero. *)
Definition is_rounding (rnd : R -> R) (F : R -> Prop) : Prop :=
  (forall x y, (x <= y)%R -> (rnd x <= rnd y)%R) /\
  (forall x, F (rnd x)) /\
  (forall x, F x -> rnd x = x) /\
  F 0%R.
