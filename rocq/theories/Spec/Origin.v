(** Where a mesh comes from: vertices and cells of one mesh that are those of another. *)
From Coq Require Import List Reals Permutation.
Import ListNotations.

(** the corners of a cell, as points *)
Definition corners (p : list (list R)) (r : list nat) : list (list R) := map (fun v => nth v p []) r.
(** all vertices of (p, t) are points of q *)
Definition vertices_from (p q : list (list R)) : Prop := forall x, In x p -> In x q.
(** every cell of (p, t) has the corners of some cell of (q, u), up to their order *)
Definition cells_from (p : list (list R)) (t : list (list nat)) (q : list (list R)) (u : list (list nat)) : Prop :=
  forall r, In r t -> exists s, In s u /\ Permutation (corners p r) (corners q s).
