(** Shared vocabulary of the models: exceptions as values, checked array access,
    boolean comparisons of reals. *)
From Coq Require Import List ZArith Reals Lia.
Import ListNotations.

(** Python exceptions raised by the modelled functions. *)
Inductive exn := ValueError | AssertionError | TypeError | IndexError | OtherError.
Inductive result (A : Type) := Ok (a : A) | Err (e : exn).
Arguments Ok {A} a.
Arguments Err {A} e.

Definition rbind {A B} (r : result A) (k : A -> result B) : result B :=
  match r with Ok a => k a | Err e => Err e end.

Definition obind {A B} (o : option A) (k : A -> option B) : option B :=
  match o with Some a => k a | None => None end.

(** Array read with an [int] index; [None] stands for an access outside the array. *)
Definition aget {A} (l : list A) (i : Z) : option A :=
  if (i <? 0)%Z then None else nth_error l (Z.to_nat i).

(** Replace element number [i]; the list is unchanged when [i] is out of range. *)
Fixpoint upd {A} (l : list A) (i : nat) (x : A) : list A :=
  match l, i with
  | [], _ => []
  | _ :: t, O => x :: t
  | h :: t, S j => h :: upd t j x
  end.

(** Array write with an [int] index; [None] stands for a write outside the array. *)
Definition aset_at {A} (l : list A) (i : Z) (x : A) : option (list A) :=
  if (i <? 0)%Z then None
  else if (Z.to_nat i <? length l) then Some (upd l (Z.to_nat i) x) else None.

(** Decidable comparisons on reals, as booleans. *)
Definition Rltb (x y : R) : bool := if Rlt_dec x y then true else false.
Definition Rleb (x y : R) : bool := if Rle_dec x y then true else false.
Definition Reqb (x y : R) : bool := if Req_EM_T x y then true else false.
Definition Rgtb (x y : R) : bool := Rltb y x.
Definition Rgeb (x y : R) : bool := Rleb y x.

(** Smallest element of a non-empty list (0 for the empty list, where the real code is undefined). *)
Fixpoint min_list (l : list R) : R :=
  match l with
  | [] => 0
  | [x] => x
  | x :: t => Rmin x (min_list t)
  end.
Fixpoint max_list (l : list R) : R :=
  match l with
  | [] => 0
  | [x] => x
  | x :: t => Rmax x (max_list t)
  end.
