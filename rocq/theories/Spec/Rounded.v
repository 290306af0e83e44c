(** Sizes and errors of the initial grid in binary64. *)
From Coq Require Import List Reals ZArith Arith.
Import ListNotations.
Local Open Scope R_scope.

(** size of the numbers of an axis *)
Definition magnitude (h : R) (b : R * R) : R := Rabs (fst b) + Rabs (snd b) + h.
(** rounding is small compared with the spacing: the numbers are below 2^51 spacings *)
Definition resolved (h : R) (b : R * R) : Prop := fst b <= snd b /\ magnitude h b < 2 ^ 51 * h.
(** coordinate by coordinate within tol *)
Definition close_to (tol : nat -> R) (q q' : list R) : Prop := length q = length q' /\ forall k, (k < length q)%nat -> Rabs (nth k q 0 - nth k q' 0) <= tol k.
(** an integer multiple of g, the integer below 2^50 in size *)
Definition multiple_of (g x : R) : Prop := exists z, x = IZR z * g /\ (Z.abs z < 2 ^ 50)%Z.
