(** Affine maps of the plane: (x, y) goes to (a x + b y + e, c x + d y + f). *)
From Coq Require Import List Reals.
Import ListNotations.
Local Open Scope R_scope.

Record affine := mkAffine { ma : R; mb : R; mc : R; md : R; me : R; mf : R }.
Definition moved_by (m : affine) (x : list R) : list R :=
  match x with [u; w] => [ma m * u + mb m * w + me m; mc m * u + md m * w + mf m] | _ => x end.
(** translations, rotations, reflections and their combinations: distances are kept *)
Definition isometry (m : affine) : Prop :=
  ma m * ma m + mc m * mc m = 1 /\ mb m * mb m + md m * md m = 1 /\ ma m * mb m + mc m * md m = 0.
