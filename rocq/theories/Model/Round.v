(** Disk and Ball distances in binary64 (geometry/signed_distance_functions.py l.596-603); Model/SDF.v has them over the reals.
    Overflow is not modelled; the power 2 of numpy is a product. *)
From Coq Require Import List Reals.
From Verif Require Import Model.Base Model.FastHJ Model.SDF.
Import ListNotations.
Local Open Scope R_scope.

Definition sqdiff64 (x c : R) : R := let d := rnd64 (x - c) in rnd64 (d * d).
(** l.596-598 *)
Definition ddisk64 (xc yc r : R) (p : pt) : R :=
  match p with [x; y] => rnd64 (rnd64 (sqrt (rnd64 (sqdiff64 x xc + sqdiff64 y yc))) - r) | _ => 0 end.
(** l.601-603 *)
Definition dball64 (xc yc zc r : R) (p : pt) : R :=
  match p with [x; y; z] => rnd64 (rnd64 (sqrt (rnd64 (rnd64 (sqdiff64 x xc + sqdiff64 y yc) + sqdiff64 z zc))) - r) | _ => 0 end.
