(** Model of the per-simplex formulas: geometry/utils.py simp_vol, simp_qual.  Reals instead of binary64; a simplex is the
    list of its vertex coordinates. *)
From Coq Require Import List ZArith Reals Bool.
From Verif Require Import Model.Base Model.SDF.
Import ListNotations.
Local Open Scope R_scope.

(** geometry/utils.py l.187-201 (dimensions 2 and 3) *)
Definition simp_vol (s : list (list R)) : R :=
  match s with
  | [[x0; y0]; [x1; y1]; [x2; y2]] => ((x1 - x0) * (y2 - y0) - (y1 - y0) * (x2 - x0)) / 2
  | [[x0; y0; z0]; [x1; y1; z1]; [x2; y2; z2]; [x3; y3; z3]] =>
      let ax := x1 - x0 in let ay := y1 - y0 in let az := z1 - z0 in
      let bx := x2 - x0 in let by_ := y2 - y0 in let bz := z2 - z0 in
      ((ay * bz - az * by_) * (x3 - x0) + (az * bx - ax * bz) * (y3 - y0) + (ax * by_ - ay * bx) * (z3 - z0)) / 6
  | _ => 0
  end.

(** simp_qual, l.266-274.  [None] is NaN.  Entries 0..2 of the entity only, also for tetrahedra (l.270-272).  Degenerate rows
    in binary64: coincident corners give 0/0; three distinct collinear corners give R = inf and the quotient 0. *)
Definition sub_len (p q : list R) : R := sqrt (fold_right Rplus 0 (map (fun d => d * d) (map2 Rminus p q))).
Definition simp_qual (s : list (list R)) : option R :=
  let a := sub_len (nth 1 s []) (nth 0 s []) in
  let b := sub_len (nth 2 s []) (nth 0 s []) in
  let c := sub_len (nth 2 s []) (nth 1 s []) in
  if Reqb a 0 || Reqb b 0 || Reqb c 0 then None
  else
    let h := (a + b + c) * (b + c - a) * (c + a - b) * (a + b - c) in
    if Reqb h 0 then Some 0
    else Some (2 * (5 / 10 * sqrt ((b + c - a) * (c + a - b) * (a + b - c) / (a + b + c))) / (a * b * c / sqrt h)).
