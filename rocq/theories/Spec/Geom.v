(** Points are lists of coordinates, boxes flat lists (lo0, hi0, lo1, hi1, ...). *)
From Coq Require Import List Reals.
Import ListNotations.
Local Open Scope R_scope.

Inductive in_box : list R -> list R -> Prop :=
| ib_nil : in_box [] []
| ib_cons lo hi b x p : lo <= x <= hi -> in_box b p -> in_box (lo :: hi :: b) (x :: p).
Inductive in_interior : list R -> list R -> Prop :=
| ii_nil : in_interior [] []
| ii_cons lo hi b x p : lo < x < hi -> in_interior b p -> in_interior (lo :: hi :: b) (x :: p).
Definition on_boundary (b p : list R) : Prop := in_box b p /\ ~ in_interior b p.

(** Euclidean distance *)
Fixpoint sqdist (p q : list R) : R :=
  match p, q with x :: p', y :: q' => (x - y) ^ 2 + sqdist p' q' | _, _ => 0 end.
Definition edist (p q : list R) : R := sqrt (sqdist p q).

(** a set of points given by its membership; [is_distance p S d]: d is the distance of p to S *)
Definition is_distance (p : list R) (S : list R -> Prop) (d : R) : Prop :=
  (forall q, S q -> d <= edist p q) /\ exists q, S q /\ edist p q = d.

(** circles and spheres *)
Definition sphere (c : list R) (r : R) (q : list R) : Prop := length q = length c /\ edist q c = r.

(** corners of a box *)
Inductive is_corner : list R -> list R -> Prop :=
| ic_nil : is_corner [] []
| ic_lo lo hi b p : is_corner b p -> is_corner (lo :: hi :: b) (lo :: p)
| ic_hi lo hi b p : is_corner b p -> is_corner (lo :: hi :: b) (hi :: p).

(** lo < hi in every direction *)
Inductive proper_box : list R -> Prop :=
| pb_nil : proper_box []
| pb_cons lo hi b : lo < hi -> proper_box b -> proper_box (lo :: hi :: b).
