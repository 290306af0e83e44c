(** Torus, Prism and Cylinder (geometry/signed_distance_functions.py l.522-590) in binary64, without rotation, stretch and translation
    (then _manipulate l.89-101 returns the points as they are).  Model/SDF.v has them over the reals.  Overflow is not modelled; numpy's power 2 is a
    product and its power 1/2 the square root. *)
From Coq Require Import List Reals.
From Verif Require Import Model.Base Model.FastHJ Model.SDF.
Import ListNotations.
Local Open Scope R_scope.

(** l.70-71 for two columns *)
Definition length64 (a b : R) : R := rnd64 (sqrt (rnd64 (rnd64 (a * a) + rnd64 (b * b)))).
(** l.536-540 *)
Definition dtorus64 (r1 r2 : R) (p : pt) : R :=
  match p with [x; y; z] => rnd64 (length64 (rnd64 (length64 x z - r1)) y - r2) | _ => 0 end.
(** l.557-563; the literal 0.866025 is rounded when the program is read *)
Definition dprism64 (b h : R) (p : pt) : R :=
  match p with
  | [x; y; z] =>
      Rmax (rnd64 (Rabs z - h))
        (rnd64 (Rmax (rnd64 (rnd64 (Rabs x * rnd64 (866025 / 1000000)) + rnd64 (y * (5 / 10)))) (- y) - rnd64 (b * (5 / 10))))
  | _ => 0
  end.
(** l.572 and l.583-590 *)
Definition dcylinder64 (h r : R) (p : pt) : R :=
  match p with
  | [x; y; z] =>
      let d0 := rnd64 (Rabs (length64 x z) - r) in
      let d1 := rnd64 (Rabs y - rnd64 (h / 2)) in
      rnd64 (Rmin (Rmax d0 d1) 0 + length64 (Rmax d0 0) (Rmax d1 0))
  | _ => 0
  end.
