(** Model of SeismicMesh/sizing/cpp/FastHJ.cpp (the gradient limiter).

    Arithmetic: every floating-point operation of the limiter is followed by the
    rounding operator [rnd : R -> R] (a parameter; the identity gives exact real
    arithmetic, Flocq's binary64 round-to-nearest-even gives the machine one, up to
    overflow/NaN, which are not modelled).  C [int] is modelled by [Z] without overflow. *)
From Coq Require Import List ZArith Reals Lia.
From Flocq Require Import Core.
From Verif Require Import Model.Base.
Import ListNotations.
Local Open Scope Z_scope.

(** binary64 rounding to nearest even, gradual underflow (IEEE-754), no overflow. *)
Definition rnd64 (x : R) : R := round radix2 (FLT_exp (-1074) 53) ZnearestE x.

(** FastHJ.cpp l.27-31 *)
Definition sub2ind (row col zpos nrows ncols : Z) : Z :=
  (col - 1) * nrows + row + (zpos - 1) * (nrows * ncols).

(** FastHJ.cpp l.38-39: [k = ceil((double)index / (double)(nrows*ncols))]; the division is
    the rounded binary64 one.  Both operands are ints, hence exact as doubles. *)
Definition plane_index (index nrows ncols : Z) : Z :=
  Zceil (rnd64 (IZR index / IZR (nrows * ncols))).

(** FastHJ.cpp l.34-46.  [(tmp2-1)/nrows] is C integer division (truncating: [Z.quot]);
    [floor] of the int result is the identity. The asserts (i,j,k > 0) are the subject of C06. *)
Definition ind2sub (index nrows ncols : Z) : Z * Z * Z :=
  let k := plane_index index nrows ncols in
  let tmp2 := index - (k - 1) * nrows * ncols in
  let j := 1 + Z.quot (tmp2 - 1) nrows in
  let i := tmp2 - (j - 1) * nrows in
  (i, j, k).

(** FastHJ.cpp l.52-60: positions where the array equals [value], ascending. *)
Fixpoint findIndices_from (pos : nat) (A : list Z) (value : Z) : list nat :=
  match A with
  | [] => []
  | a :: t => if a =? value then pos :: findIndices_from (S pos) t value
              else findIndices_from (S pos) t value
  end.
Definition findIndices (A : list Z) (value : Z) : list nat := findIndices_from 0 A value.

(** FastHJ.cpp l.97-123: the six stencil neighbours (zero-based) of the zero-based node [a],
    in the order p = 1..6. *)
Definition stencil (d0 d1 d2 : Z) (a : Z) : list Z :=
  let inod := a + 1 in
  let '(ipos, jpos, kpos) := ind2sub inod d0 d1 in
  [ sub2ind ipos (Z.min (jpos + 1) d1) kpos d0 d1 - 1;
    sub2ind ipos (Z.max (jpos - 1) 1) kpos d0 d1 - 1;
    sub2ind (Z.min (ipos + 1) d0) jpos kpos d0 d1 - 1;
    sub2ind (Z.max (ipos - 1) 1) jpos kpos d0 d1 - 1;
    sub2ind ipos jpos (Z.min (kpos + 1) d2) d0 d1 - 1;
    sub2ind ipos jpos (Z.max (kpos - 1) 1) d0 d1 - 1 ].

Section Limgrad.
Variable rnd : R -> R.

(** State of the limiter: the field [ffun_s] and the activity marks [aset]. *)
Record lstate := mkL { fld : list R; act : list Z }.

(** FastHJ.cpp l.135-151: one edge update. [g] is the (rounded) product elen*dfdx.
    [None] = access outside the arrays. *)
Definition relax (g ftol : R) (iter : Z) (s : lstate) (nod1 nod2 : Z) : option lstate :=
  obind (aget (fld s) nod1) (fun f1 =>
  obind (aget (fld s) nod2) (fun f2 =>
  if Rgtb f1 f2 then
    let fun1 := rnd (f2 + g)%R in
    if Rgtb f1 (rnd (fun1 + ftol)%R) then
      obind (aset_at (fld s) nod1 fun1) (fun f' =>
      obind (aset_at (act s) nod1 iter) (fun a' => Some (mkL f' a')))
    else Some s
  else
    let fun2 := rnd (f1 + g)%R in
    if Rgtb f2 (rnd (fun2 + ftol)%R) then
      obind (aset_at (fld s) nod2 fun2) (fun f' =>
      obind (aset_at (act s) nod2 iter) (fun a' => Some (mkL f' a')))
    else Some s)).

(** FastHJ.cpp l.129-152: loop p = 1..6 over the neighbours of one node. *)
Fixpoint relax_all (g ftol : R) (iter : Z) (s : lstate) (nod1 : Z) (nbrs : list Z) : option lstate :=
  match nbrs with
  | [] => Some s
  | n2 :: t => obind (relax g ftol iter s nod1 n2) (fun s' => relax_all g ftol iter s' nod1 t)
  end.

(** FastHJ.cpp l.95-153: one pass over the nodes that were active when the pass began. *)
Fixpoint sweep (d0 d1 d2 : Z) (g ftol : R) (iter : Z) (s : lstate) (aidx : list nat) : option lstate :=
  match aidx with
  | [] => Some s
  | a :: t => obind (relax_all g ftol iter s (Z.of_nat a) (stencil d0 d1 d2 (Z.of_nat a)))
                    (fun s' => sweep d0 d1 d2 g ftol iter s' t)
  end.

(** FastHJ.cpp l.83-155: the main loop; [fuel] = imax - iter.  The boolean tells whether the
    loop stopped through the [break] (convergence) rather than by reaching imax. *)
Fixpoint hj_loop (fuel : nat) (d0 d1 d2 : Z) (g ftol : R) (iter : Z) (s : lstate)
  : option (lstate * bool) :=
  match fuel with
  | O => Some (s, false)
  | S n =>
      let aidx := findIndices (act s) (iter - 1) in
      match aidx with
      | [] => Some (s, true)
      | _ => obind (sweep d0 d1 d2 g ftol iter s aidx)
                   (fun s' => hj_loop n d0 d1 d2 g ftol (iter + 1) s')
      end
  end.

(** FastHJ.cpp l.71 (tolerance), with EPS = 1e-9 *)
Definition ftol_of (ffun : list R) : R := rnd (min_list ffun * rnd (sqrt (1 / 10 ^ 9)))%R.

(** FastHJ.cpp l.63-157 (c_limgrad), returning also the "stopped by convergence" flag. *)
Definition c_limgrad_full (d0 d1 d2 : Z) (elen dfdx : R) (imax : nat) (ffun : list R)
  : option (list R * bool) :=
  let aset := repeat (-1) (Z.to_nat (d0 * d1 * d2)) in
  let g := rnd (elen * dfdx)%R in
  obind (hj_loop imax d0 d1 d2 g (ftol_of ffun) 0 (mkL ffun aset))
        (fun r => Some (fld (fst r), snd r)).

(** FastHJ.cpp l.161-187 (limgrad): what the caller gets. *)
Definition limgrad (d0 d1 d2 : Z) (elen dfdx : R) (imax : nat) (ffun : list R) : option (list R) :=
  obind (c_limgrad_full d0 d1 d2 elen dfdx imax ffun) (fun r => Some (fst r)).

(** "limgrad stops because no node is active any more" *)
Definition limgrad_converged (d0 d1 d2 : Z) (elen dfdx : R) (imax : nat) (ffun : list R) : Prop :=
  exists out, c_limgrad_full d0 d1 d2 elen dfdx imax ffun = Some (out, true).
End Limgrad.
