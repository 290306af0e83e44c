(** Subsequences: some elements left out, order kept. *)
From Coq Require Import List.
Import ListNotations.
Inductive subseq {A} : list A -> list A -> Prop :=
| ss_nil l : subseq [] l
| ss_keep x l m : subseq l m -> subseq (x :: l) (x :: m)
| ss_drop x l m : subseq l m -> subseq l (x :: m).
