(** Mirror images of gridded fields: the axes x (1) and y (2) may be reversed, the depth axis (0) is not. *)
From Coq Require Import List Reals Arith.
From Verif Require Import Model.Base Model.Sizing Spec.Velocity.
Local Open Scope R_scope.

Definition flip (b : bool) (n j : nat) : nat := if b then (n - 1 - j)%nat else j.
(** [a'] is [a] with the x axis (if [bx]) and the y axis (if [by_]) reversed *)
Definition reversed (bx by_ : bool) (a a' : garr) : Prop :=
  (adim a', n0 a', n1 a', n2 a') = (adim a, n0 a, n1 a, n2 a) /\
  forall i j k, has a i j k -> av a' i j k = av a i (flip bx (n1 a) j) (flip by_ (n2 a) k).
(** the window is centred: off, or an odd number of samples *)
Definition centred (s : R) : Prop := s <= 1 \/ Nat.Odd (int_of s).
(** the outcomes correspond: the same error, or mirror images with the same box *)
Definition reversed_outcome (bx by_ : bool) (r r' : sizing_result (garr * garr * bbox)) : Prop :=
  match r, r' with
  | SzOk (a, v, d), SzOk (a', v', d') => reversed bx by_ a a' /\ reversed bx by_ v v' /\ d' = d
  | SzErr e, SzErr e' => e' = e
  | SzNonFinite, SzNonFinite => True
  | _, _ => False
  end.
