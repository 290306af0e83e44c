(** Selection of the vertices a rank sends to its neighbours. *)
From Coq Require Import List Arith Reals.
From Verif Require Import Model.Simplex Spec.Linear.
Import ListNotations.
Local Open Scope R_scope.

(** the point q is in the closed box with corners lo, hi *)
Definition within (b : list R * list R) (q : list R) : Prop := Forall2 Rle (fst b) q /\ Forall2 Rle q (snd b).
(** the box that spans the points of s and the box b have a common point *)
Definition span_meets (d : nat) (s : list (list R)) (b : list R * list R) : Prop :=
  exists q, within b q /\ forall k, (k < d)%nat -> (exists p, In p s /\ nth k p 0 <= nth k q 0) /\ exists p, In p s /\ nth k q 0 <= nth k p 0.
(** the circumscribed circle/sphere of s (its curve, its ball) meets the box *)
Definition sphere_meets (s : list (list R)) (b : list R * list R) : Prop :=
  exists c r2 q, circumscribed s c r2 /\ within b q /\ sqnorm_diff q c = r2.
Definition ball_meets (s : list (list R)) (b : list R * list R) : Prop :=
  exists c r2 q, circumscribed s c r2 /\ within b q /\ sqnorm_diff q c <= r2.
(** what is assumed of the geometry library: true when the circle meets the box, false when the disk misses it *)
Definition intersection_test (d : nat) (meets : list (list R) -> list R * list R -> bool) : Prop :=
  forall s b, simplex_points d s -> simp_vol s <> 0 -> length (fst b) = d -> length (snd b) = d ->
    (sphere_meets s b -> meets s b = true) /\ (meets s b = true -> ball_meets s b).
(** an element counts for the selection if it is not degenerate and the box spanned by it meets one of the neighbours' boxes *)
Definition usable (d : nat) (b1 b2 : list R * list R) (s : list (list R)) : Prop := simp_vol s <> 0 /\ (span_meets d s b1 \/ span_meets d s b2).
(** e is the first element at v, in the order of the element table, that counts and whose ball is found to meet one of the boxes *)
Definition first_hit (d : nat) (meets : list (list R) -> list R * list R -> bool) (b1 b2 : list R * list R) (points : list (list R)) (faces : list (list nat)) (v e : nat) : Prop :=
  let cell e := map (fun i => nth i points []) (nth e faces []) in
  (e < length faces)%nat /\ In v (nth e faces []) /\ usable d b1 b2 (cell e) /\ (meets (cell e) b1 = true \/ meets (cell e) b2 = true) /\
  forall e', (e' < e)%nat -> In v (nth e' faces []) -> usable d b1 b2 (cell e') -> meets (cell e') b1 = false /\ meets (cell e') b2 = false.
(** cells with d+1 corners and valid indices, points with d coordinates *)
Definition mesh_ok (d : nat) (points : list (list R)) (faces : list (list nat)) : Prop :=
  Forall (fun p => length p = d) points /\ Forall (fun c => length c = S d /\ Forall (fun v => (v < length points)%nat) c) faces.
