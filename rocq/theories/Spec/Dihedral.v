(** Dihedral angles of a tetrahedron. *)
From Coq Require Import List Arith Reals Permutation.
From Verif Require Import Spec.Linear.
Import ListNotations.
Local Open Scope R_scope.

(** the vector from a to b; the part of w orthogonal to u *)
Definition vec (a b : list R) : list R := vplus b (vtimes (-1) a).
Definition perp (u w : list R) : list R := vplus w (vtimes (- (inner u w / inner u u)) u).
(** phi is the angle between the nonzero vectors u and w *)
Definition angle_between (u w : list R) (phi : R) : Prop :=
  0 < inner u u /\ 0 < inner w w /\ 0 <= phi <= PI /\ inner u w = cos phi * sqrt (inner u u) * sqrt (inner w w).
(** angle at the edge ab between the faces abc and abd (defined when both faces are proper triangles) *)
Definition dihedral (a b c d : list R) (phi : R) : Prop :=
  0 < inner (vec a b) (vec a b) /\ angle_between (perp (vec a b) (vec a c)) (perp (vec a b) (vec a d)) phi.
(** some dihedral angle of the tetrahedron with corners s is defined and outside [lo, hi] *)
Definition bad_angle (lo hi : R) (s : list (list R)) : Prop :=
  exists a b c d phi, Permutation [a; b; c; d] s /\ dihedral a b c d phi /\ (phi < lo \/ hi < phi).
(** all points on one line *)
Definition on_a_line (s : list (list R)) : Prop := exists a u, length a = length u /\ Forall (fun q => exists x, q = vplus a (vtimes x u)) s.
(** any three corners form a proper triangle *)
Definition proper_faces (s : list (list R)) : Prop := forall a b c d, Permutation [a; b; c; d] s ->
  0 < inner (vec a b) (vec a b) /\ 0 < inner (perp (vec a b) (vec a c)) (perp (vec a b) (vec a c)).
(** the corners are affinely dependent: the tetrahedron has no volume *)
Definition flat (s : list (list R)) : Prop :=
  exists co, length co = length s /\ total co = 0 /\ Exists (fun x => x <> 0) co /\ combination 3 co s = [0; 0; 0].
