(** What a rank sees of the points of all ranks after the ghost exchange. *)
From Coq Require Import List Arith Reals.
From Verif Require Import Model.SDF Model.Simplex Model.Mesh Model.Generator Model.Parallel Spec.Linear Spec.Export Spec.Lockstep.
Import ListNotations.
Local Open Scope nat_scope.

(** box of rank r: row [lo...; hi...] of the extents *)
Definition box_of (d : nat) (ext : list (list R)) (r : nat) : list R * list R := (firstn d (nth r ext []), skipn d (nth r ext [])).
(** stand-in for the missing neighbour of the first and the last rank *)
Definition nowhere (d : nat) : list R * list R := (repeat (-999999999)%R d, repeat (-999999998)%R d).
(** box the code compares with below rank s *)
Definition box_below (d : nat) (ext : list (list R)) (s : nat) : list R * list R := match s with O => nowhere d | S s' => box_of d ext s' end.

Section Seen.
Variables (Q : par_backend) (size : nat) (P : nat -> problem) (ext : list (list R)) (c : nat) (p : nat -> list pt) (d : nat).
(** vertices and cells of the triangulation of rank r's own points; corners of a cell *)
Definition vertices (r : nat) : list pt := fst (q_tri Q r c (p r)).
Definition cells (r : nat) : list row := snd (q_tri Q r c (p r)).
Definition cell_points (r e : nat) : list pt := map (fun v => nth v (vertices r) []) (nth e (cells r) []).
(** what it holds after the exchange *)
Definition held (r : nat) : list pt := vertices r ++ incoming Q size P ext c p r.
(** its triangulation is a valid one and every vertex belongs to a non-degenerate cell *)
Definition full_mesh (r : nat) : Prop := mesh_ok d (vertices r) (cells r) /\
  forall v, v < length (vertices r) -> exists e, e < length (cells r) /\ In v (nth e (cells r) []) /\ simp_vol (cell_points r e) <> 0%R.
(** some vertex of it has no cell whose circumscribed ball meets a neighbour's box (otherwise the export table may overflow, C60) *)
Definition some_stay (r : nat) : Prop := exists v, v < length (vertices r) /\ forall e, e < length (cells r) -> In v (nth e (cells r) []) ->
  ~ ball_meets (cell_points r e) (box_below d ext r) /\ ~ ball_meets (cell_points r e) (if r + 1 =? size then nowhere d else box_of d ext (r + 1)).
(** no cell at a vertex of rank s in the box of the rank above has a circumscribed ball reaching the box below *)
Definition clear_below (s : nat) : Prop := forall v e, v < length (vertices s) -> within (box_of d ext (s + 1)) (nth v (vertices s) []) ->
  e < length (cells s) -> In v (nth e (cells s) []) -> simp_vol (cell_points s e) <> 0%R -> ~ ball_meets (cell_points s e) (box_below d ext s).
(** ranks that are not neighbours have no vertex in the box of r *)
Definition only_neighbours (r : nat) : Prop := forall s x, s < size -> s <> r -> s + 1 <> r -> r + 1 <> s -> In x (vertices s) -> ~ within (box_of d ext r) x.
End Seen.
