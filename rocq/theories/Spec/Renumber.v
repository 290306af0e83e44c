(** The same mesh with other numbers: vertices renumbered, rows in another order, corners of a row in another order. *)
From Coq Require Import List Reals Permutation.
Import ListNotations.

Definition used (t : list (list nat)) (v : nat) : Prop := exists r, In r t /\ In v r.
(** t' is t with vertex v called pi v, the rows in any order, the corners of every row in any order *)
Definition renumbered (pi : nat -> nat) (t t' : list (list nat)) : Prop :=
  exists t1, Permutation t1 t' /\ Forall2 (fun r r' => Permutation (map pi r) r') t t1.
(** different vertices get different numbers *)
Definition distinct_numbers (pi : nat -> nat) (t : list (list nat)) : Prop := forall v w, used t v -> used t w -> pi v = pi w -> v = w.
(** the points are numbered accordingly *)
Definition points_follow (pi : nat -> nat) (t : list (list nat)) (p p' : list (list R)) : Prop := forall v, used t v -> nth (pi v) p' [] = nth v p [].
(** pi permutes the numbers below n; the points p' are the points p in the new numbering *)
Definition permutes (pi : nat -> nat) (n : nat) : Prop := (forall v, v < n -> pi v < n) /\ (forall v w, v < n -> w < n -> pi v = pi w -> v = w).
Definition relabelled (pi : nat -> nat) (p p' : list (list R)) : Prop := length p' = length p /\ forall v, v < length p -> nth (pi v) p' [] = nth v p [].
