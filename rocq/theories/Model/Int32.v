(** Model of SeismicMesh/sizing/cpp/FastHJ.cpp with C's 32-bit [int]: every integer operation of the limiter is checked.  [None]: the
    operation overflows, which C++ leaves undefined (or, as in [FastHJ.v], an array is accessed outside its bounds).  The floating-point part
    is that of [FastHJ.v]. *)
From Coq Require Import List ZArith Reals Lia.
From Flocq Require Import Core.
From Verif Require Import Model.Base Model.FastHJ.
Import ListNotations.
Local Open Scope Z_scope.

(** the values of [int] *)
Definition int_ok (z : Z) : bool := (- 2 ^ 31 <=? z) && (z <=? 2 ^ 31 - 1).
Definition ck (z : Z) : option Z := if int_ok z then Some z else None.
Definition iadd (a b : Z) : option Z := ck (a + b).
Definition isub (a b : Z) : option Z := ck (a - b).
Definition imul (a b : Z) : option Z := ck (a * b).

(** FastHJ.cpp l.27-31, in the order of C's operators *)
Definition sub2ind_i (row col zpos nrows ncols : Z) : option Z :=
  obind (isub col 1) (fun c => obind (imul c nrows) (fun c => obind (iadd c row) (fun c =>
  obind (isub zpos 1) (fun z => obind (imul nrows ncols) (fun a => obind (imul z a) (fun z => iadd c z)))))).
(** l.34-46; the product of l.38 is an int before it becomes a double; the conversion of the ceiling to int (l.39) is undefined when it does
    not fit; (k - 1) * nrows * ncols is evaluated from the left; floor and 1 + of l.41 are doubles, exact, then converted *)
Definition ind2sub_i (index nrows ncols : Z) : option (Z * Z * Z) :=
  obind (imul nrows ncols) (fun a =>
  obind (ck (Zceil (rnd64 (IZR index / IZR a)))) (fun k =>
  obind (isub k 1) (fun k1 => obind (imul k1 nrows) (fun k1 => obind (imul k1 ncols) (fun k1 =>
  obind (isub index k1) (fun tmp2 =>
  obind (isub tmp2 1) (fun t1 =>
  obind (ck (1 + Z.quot t1 nrows)) (fun j =>
  obind (isub j 1) (fun j1 => obind (imul j1 nrows) (fun j1 =>
  obind (isub tmp2 j1) (fun i => Some (i, j, k)))))))))))).
(** l.97-123 *)
Definition stencil_i (d0 d1 d2 a : Z) : option (list Z) :=
  obind (iadd a 1) (fun inod =>
  obind (ind2sub_i inod d0 d1) (fun q => let '(ipos, jpos, kpos) := q in
  obind (iadd jpos 1) (fun jn => obind (sub2ind_i ipos (Z.min jn d1) kpos d0 d1) (fun n1 =>
  obind (isub jpos 1) (fun jp => obind (sub2ind_i ipos (Z.max jp 1) kpos d0 d1) (fun n2 =>
  obind (iadd ipos 1) (fun i' => obind (sub2ind_i (Z.min i' d0) jpos kpos d0 d1) (fun n3 =>
  obind (isub ipos 1) (fun ip => obind (sub2ind_i (Z.max ip 1) jpos kpos d0 d1) (fun n4 =>
  obind (iadd kpos 1) (fun kn => obind (sub2ind_i ipos jpos (Z.min kn d2) d0 d1) (fun n5 =>
  obind (isub kpos 1) (fun kp => obind (sub2ind_i ipos jpos (Z.max kp 1) d0 d1) (fun n6 =>
  obind (isub n1 1) (fun n1 => obind (isub n2 1) (fun n2 => obind (isub n3 1) (fun n3 =>
  obind (isub n4 1) (fun n4 => obind (isub n5 1) (fun n5 => obind (isub n6 1) (fun n6 =>
  Some [n1; n2; n3; n4; n5; n6])))))))))))))))))))).
Section Limgrad.
Variable rnd : R -> R.
(** l.95-153; l.54-58: the positions are unsigned and become ints *)
Fixpoint sweep_i (d0 d1 d2 : Z) (g ftol : R) (iter : Z) (s : lstate) (aidx : list nat) : option lstate :=
  match aidx with
  | [] => Some s
  | a :: t => obind (ck (Z.of_nat a)) (fun za => obind (stencil_i d0 d1 d2 za) (fun nbrs =>
              obind (relax_all rnd g ftol iter s za nbrs) (fun s' => sweep_i d0 d1 d2 g ftol iter s' t)))
  end.
(** l.83-155 *)
Fixpoint hj_loop_i (fuel : nat) (d0 d1 d2 : Z) (g ftol : R) (iter : Z) (s : lstate) : option (lstate * bool) :=
  match fuel with
  | O => Some (s, false)
  | S n =>
      obind (isub iter 1) (fun prev =>
      match findIndices (act s) prev with
      | [] => Some (s, true)
      | aidx => obind (sweep_i d0 d1 d2 g ftol iter s aidx) (fun s' =>
                obind (iadd iter 1) (fun iter' => hj_loop_i n d0 d1 d2 g ftol iter' s'))
      end)
  end.
(** l.63-157; imax is an int; the product of the extents is evaluated from the left (l.69, l.81) *)
Definition c_limgrad_i (d0 d1 d2 : Z) (elen dfdx : R) (imax : nat) (ffun : list R) : option (list R * bool) :=
  obind (imul d0 d1) (fun a => obind (imul a d2) (fun n =>
  obind (hj_loop_i imax d0 d1 d2 (rnd (elen * dfdx)%R) (ftol_of rnd ffun) 0 (mkL ffun (repeat (-1) (Z.to_nat n)))) (fun r =>
  Some (fld (fst r), snd r)))).
(** l.161-187 *)
Definition limgrad_i (d0 d1 d2 : Z) (elen dfdx : R) (imax : nat) (ffun : list R) : option (list R) :=
  obind (c_limgrad_i d0 d1 d2 elen dfdx imax ffun) (fun r => Some (fst r)).
End Limgrad.
