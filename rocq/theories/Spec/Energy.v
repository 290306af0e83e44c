(** Vocabulary for what smoothing does to a triangle mesh of the plane, independent of the code. *)
From Coq Require Import List Arith Reals.
From Verif Require Import Spec.MeshTopo Spec.Smooth.
Import ListNotations.
Local Open Scope R_scope.

Definition add_up (l : list R) : R := fold_right Rplus 0 l.
(** the corners of a triangle *)
Definition c0 (r : list nat) : nat := nth 0 r 0%nat.
Definition c1 (r : list nat) : nat := nth 1 r 0%nat.
Definition c2 (r : list nat) : nat := nth 2 r 0%nat.
(** sum of the squared lengths of the three sides of r; over all triangles (an edge of two triangles counts twice) *)
Definition sides2 (p : list (list R)) (r : list nat) : R :=
  gap2 (nth (c0 r) p []) (nth (c1 r) p []) + gap2 (nth (c1 r) p []) (nth (c2 r) p []) + gap2 (nth (c2 r) p []) (nth (c0 r) p []).
Definition energy (t : list (list nat)) (p : list (list R)) : R := add_up (map (sides2 p) t).
(** squared distances between the places of the corners of r in p and in q; over all triangles *)
Definition moved2 (p q : list (list R)) (r : list nat) : R :=
  gap2 (nth (c0 r) p []) (nth (c0 r) q []) + gap2 (nth (c1 r) p []) (nth (c1 r) q []) + gap2 (nth (c2 r) p []) (nth (c2 r) q []).
Definition movement (t : list (list nat)) (p q : list (list R)) : R := add_up (map (moved2 p q) t).
(** signed area: positive when the corners are listed counter-clockwise *)
Definition area (p : list (list R)) (r : list nat) : R :=
  ((coord p (c1 r) 0 - coord p (c0 r) 0) * (coord p (c2 r) 1 - coord p (c0 r) 1) -
   (coord p (c1 r) 1 - coord p (c0 r) 1) * (coord p (c2 r) 0 - coord p (c0 r) 0)) / 2.
Definition total_area (t : list (list nat)) (p : list (list R)) : R := add_up (map (area p) t).
(** all triangles are listed the same way round: no directed side occurs twice *)
Definition sides (r : list nat) : list (nat * nat) := [(c0 r, c1 r); (c1 r, c2 r); (c2 r, c0 r)].
Definition coherent (t : list (list nat)) : Prop := NoDup (flat_map sides t).
(** the two lists of places agree on the boundary vertices *)
Definition same_boundary (t : list (list nat)) (p q : list (list R)) : Prop :=
  forall v, on_boundary t v -> forall j, (j < 2)%nat -> coord p v j = coord q v j.
