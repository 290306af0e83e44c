(** Union, Intersection, Difference (geometry/signed_distance_functions.py l.297-422) in binary64.  min, max and the change of sign are exact.
    Overflow is not modelled (it needs operands or k beyond 10^154). *)
From Coq Require Import List ZArith Reals Bool.
From Verif Require Import Model.Base Model.FastHJ Model.SDF.
Import ListNotations.
Local Open Scope R_scope.

(** h of l.333, 373, 413 for the difference d of the operands *)
Definition blend64 (k d : R) : R := Rmax (rnd64 (k - Rabs d)) 0.
(** l.332-334: np.divide(h * h * 0.25, k) *)
Definition smooth_union64 (k d1 d2 : R) : R :=
  let h := blend64 k (rnd64 (d1 - d2)) in rnd64 (Rmin d1 d2 - rnd64 (rnd64 (rnd64 (h * h) * (1 / 4)) / k)).
(** l.372-374 *)
Definition smooth_intersection64 (k d1 d2 : R) : R :=
  let h := blend64 k (rnd64 (d1 - d2)) in rnd64 (Rmax d1 d2 + rnd64 (rnd64 (rnd64 (h * h) * (1 / 4)) / k)).
(** l.412-414 *)
Definition smooth_difference64 (k d1 d2 : R) : R :=
  let h := blend64 k (rnd64 (- d1 - d2)) in rnd64 (Rmax (- d1) d2 + rnd64 (rnd64 (rnd64 (h * h) * (1 / 4)) / k)).
(** l.335-341, 375-381, 415-423; the operands' computed values *)
Definition union_vals64 (k : R) (d : list R) : R :=
  if Reqb k 0 then reduce_ Rmin d else reduce_ (smooth_union64 k) d.
Definition intersection_vals64 (k : R) (d : list R) : R :=
  if Reqb k 0 then reduce_ Rmax d else reduce_ (smooth_intersection64 k) d.
Definition difference_vals64 (k : R) (d : list R) : R :=
  if Reqb k 0 then reduce_ Rmax (match d with [] => [] | x :: t => x :: map Ropp t end)
  else reduce_ (smooth_difference64 k) (rev d).
(** operands whose [d_eval] is the computed value *)
Definition Union64 (k : R) := set_init (fun ds x => union_vals64 k (map (fun d => d_eval d x) ds)).
Definition Intersection64 (k : R) := set_init (fun ds x => intersection_vals64 k (map (fun d => d_eval d x) ds)).
Definition Difference64 (k : R) := set_init (fun ds x => difference_vals64 k (map (fun d => d_eval d x) ds)).
