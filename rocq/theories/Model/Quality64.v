(** simp_qual (geometry/utils.py l.252-274) in binary64, and the two places that compare it with a minimum.  Overflow is not modelled. *)
From Coq Require Import List ZArith Reals Bool Arith.
From Verif Require Import Model.Base Model.FastHJ Model.SDF Model.Simplex Model.Mesh Model.Laplace64.
Import ListNotations.
Local Open Scope R_scope.

Inductive qual64 : Type := QNum (q : R) | QInf | QNan.
(** l.266-267 *)
Definition len64 (p q : list R) : R := rnd64 (sqrt (sq64 p q)).
(** l.272-274, operations from left to right as Python evaluates them; the square root of a negative number, 0/0 and 0*inf are NaN, x/0 is inf and
    x/inf is 0.  The factors 0.5 and 2 are rounded like any other product. *)
Definition quality64 (a b c : R) : qual64 :=
  let x := rnd64 (rnd64 (b + c) - a) in
  let y := rnd64 (rnd64 (c + a) - b) in
  let z := rnd64 (rnd64 (a + b) - c) in
  let s := rnd64 (rnd64 (a + b) + c) in
  if Reqb s 0 then QNan
  else
    let v := rnd64 (rnd64 (rnd64 (x * y) * z) / s) in
    let w := rnd64 (rnd64 (rnd64 (s * x) * y) * z) in
    if Rltb v 0 || Rltb w 0 then QNan
    else
      let r := rnd64 (1 / 2 * rnd64 (sqrt v)) in
      let m := rnd64 (rnd64 (a * b) * c) in
      let d := rnd64 (sqrt w) in
      if Reqb d 0 then (if Reqb m 0 then QNan else QNum 0)
      else
        let k := rnd64 (m / d) in
        if Reqb k 0 then (if Reqb r 0 then QNan else QInf)
        else QNum (rnd64 (rnd64 (2 * r) / k)).
(** l.269-271: corners 0, 1, 2 of the row *)
Definition simp_qual64 (s : list (list R)) : qual64 :=
  quality64 (len64 (nth 1 s []) (nth 0 s [])) (len64 (nth 2 s []) (nth 0 s [])) (len64 (nth 2 s []) (nth 1 s [])).
Definition entity_qual64 (p : list (list R)) (t : list row) (e : nat) : qual64 := simp_qual64 (map (fun v => nth v p []) (nth e t [])).
(** l.457-460 of delete_boundary_entities: qual[bele] < min_qual; neither NaN nor inf is smaller than a number *)
Definition as_number (q : qual64) : option R := match q with QNum x => Some x | _ => None end.
Definition kept_rows64 (min_qual : R) (p : list (list R)) (bele : list nat) (t : list row) : list row :=
  kept_rows (fun e => as_number (entity_qual64 p t e)) min_qual bele t.
(** linter l.845: np.argmin of the qualities of a pair, a NaN counting as smaller than any number *)
Definition worse64 (q1 q2 : qual64) : nat :=
  match q1, q2 with
  | QNan, _ => 0
  | _, QNan => 1
  | QNum a, QNum b => if Rltb b a then 1 else 0
  | QInf, QNum _ => 1
  | _, _ => 0
  end%nat.
