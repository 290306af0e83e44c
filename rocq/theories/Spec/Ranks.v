(** Distance between two sets of points along a coordinate axis. *)
From Coq Require Import List Arith Reals.
Import ListNotations.
Local Open Scope R_scope.

(** the points p and q lie in the same row of a grid staggered along axis 0 (nothing to ask along axis 0 itself) *)
Definition same_row (axis : nat) (p q : list R) : Prop := axis = O \/ nth 0 p 0 = nth 0 q 0.
(** g is the smallest advance along the axis from a point of P to a point of Q in the same row *)
Definition row_gap (axis : nat) (P Q : list (list R)) (g : R) : Prop :=
  (forall p q, In p P -> In q Q -> same_row axis p q -> g <= nth axis q 0 - nth axis p 0) /\
  exists p q, In p P /\ In q Q /\ same_row axis p q /\ nth axis q 0 - nth axis p 0 = g.
