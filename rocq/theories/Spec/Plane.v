(** Planes a.x + c = 0 and affine functions, independent of the code. *)
From Coq Require Import Reals List.
Import ListNotations.
Local Open Scope R_scope.

Fixpoint inner (a x : list R) : R := match a, x with u :: a', v :: x' => u * v + inner a' x' | _, _ => 0 end.
(** x moved by s along a *)
Fixpoint along (x : list R) (s : R) (a : list R) : list R :=
  match x, a with u :: x', v :: a' => (u + s * v) :: along x' s a' | _, _ => [] end.
(** x moved by s along axis i *)
Definition axis_step (x : list R) (i : nat) (s : R) : list R := firstn i x ++ match skipn i x with [] => [] | u :: r => (u + s) :: r end.
(** f is the affine function c + a.x at the points where it is evaluated near x with step s *)
Definition affine_near (f : list R -> R) (c : R) (a x : list R) (s : R) : Prop :=
  f x = c + inner a x /\ forall i, (i < length x)%nat -> f (axis_step x i s) = c + inner a (axis_step x i s).
