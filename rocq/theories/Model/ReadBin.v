(** Model of [_read_bin] (SeismicMesh/sizing/mesh_size_function.py l.609-630).
    A file is its list of decoded samples; byte order and dtype decoding are not modelled. *)
From Coq Require Import List Arith Lia Bool.
From Verif Require Import Model.Base.
Import ListNotations.

Inductive order := OrdF | OrdC.

(** np.argsort of a list of naturals without repetition: position of 0, 1, 2, ... when it is a permutation.
    Modelled for the lists numpy's transpose accepts (permutations of 0,1,2). *)
Fixpoint index_of (x : nat) (l : list nat) : nat :=
  match l with
  | [] => 0
  | y :: t => if Nat.eqb x y then 0 else S (index_of x t)
  end.
Definition argsort (l : list nat) : list nat := map (fun r => index_of r l) (seq 0 (length l)).

(** transpose raises ValueError unless axes_order is a permutation of (0,1,2) *)
Definition is_perm3 (l : list nat) : bool :=
  Nat.eqb (length l) 3 && existsb (Nat.eqb 0) l && existsb (Nat.eqb 1) l && existsb (Nat.eqb 2) l.

(** offset of element (a,b,c) in an array of shape (m0,m1,m2), l.626 *)
Definition offset (o : order) (m0 m1 m2 a b c : nat) : nat :=
  match o with
  | OrdF => a + m0 * (b + m1 * c)
  | OrdC => (a * m1 + b) * m2 + c
  end.

(** l.626-628: where in the file the sample shown at (i,j,k) of the result comes from:
    flipud, then transpose(axes_order): result[i0,i1,i2] = A[idx] with idx[axes_order[m]] = i_m. *)
Definition source_offset (o : order) (ao : list nat) (nz nx ny i j k : nat) : nat :=
  let axes := [nz; nx; ny] in
  let ix := argsort ao in
  let axes' := map (fun q => nth q axes 0) ix in
  let i' := nz - 1 - i in
  let ijk := [i'; j; k] in
  let idx := map (fun r => nth (index_of r ao) ijk 0) [0; 1; 2] in
  offset o (nth 0 axes' 0) (nth 1 axes' 0) (nth 2 axes' 0) (nth 0 idx 0) (nth 1 idx 0) (nth 2 idx 0).

(** shape of the returned array: transposed shape [axes'[ao[m]]] *)
Definition result_shape (ao : list nat) (nz nx ny : nat) : list nat :=
  let axes' := map (fun q => nth q [nz; nx; ny] 0) (argsort ao) in
  map (fun m => nth m axes' 0) ao.

(** l.609-630; a wrong number of samples makes reshape raise ValueError.  Returns shape and element function. *)
Definition read_bin {A} (d : A) (file : list A) (byte_order_ok : bool) (nz nx ny : option nat) (ao : list nat) (o : order)
  : result (list nat * (nat -> nat -> nat -> A)) :=
  match nz, nx, ny with
  | Some nz, Some nx, Some ny =>
      if negb byte_order_ok then Err ValueError
      else if negb (Nat.eqb (length file) (nz * nx * ny)) then Err ValueError
      else if negb (is_perm3 ao) then Err ValueError
      else Ok (result_shape ao nz nx ny, fun i j k => nth (source_offset o ao nz nx ny i j k) file d)
  | _, _, _ => Err ValueError
  end.
