(** Vocabulary of Laplacian smoothing, independent of the code. *)
From Coq Require Import List Arith Bool Reals.
From Verif Require Import Spec.MeshTopo.
Import ListNotations.
Local Open Scope R_scope.

(** sum of g over the numbers below n *)
Fixpoint sum_below (n : nat) (g : nat -> R) : R := match n with O => 0 | S m => sum_below m g + g m end.
(** number of triangles having the two different vertices v and u among their corners *)
Definition links (t : list (list nat)) (v u : nat) : R := if (v =? u)%nat then 0 else INR (entities_on [v; u] t).
(** v is an end of an edge that belongs to one triangle only *)
Definition on_boundary (t : list (list nat)) (v : nat) : Prop :=
  exists f, increasing f /\ length f = 2%nat /\ entities_on f t = 1%nat /\ In v f.
(** coordinate j of vertex v of p *)
Definition coord (p : list (list R)) (v j : nat) : R := nth j (nth v p []) 0.
(** vertex v of q is at the average of its neighbours in p, each weighted by the number of common triangles *)
Definition averages (t : list (list nat)) (p q : list (list R)) (v : nat) : Prop :=
  0 < sum_below (length p) (links t v) /\
  forall j, (j < 2)%nat -> coord q v j * sum_below (length p) (links t v) = sum_below (length p) (fun u => links t v u * coord p u j).
(** q comes from p by moving exactly the vertices outside F to the average of their neighbours *)
Definition averaging_step (t : list (list nat)) (F : nat -> Prop) (p q : list (list R)) : Prop :=
  length q = length p /\
  forall v, (v < length p)%nat -> length (nth v q []) = 2%nat /\ (F v -> nth v q [] = nth v p []) /\ (~ F v -> averages t p q v).
(** k such steps *)
Inductive steps (t : list (list nat)) (F : nat -> Prop) : nat -> list (list R) -> list (list R) -> Prop :=
| steps_O : forall p, steps t F 0 p p
| steps_S : forall k p q r, averaging_step t F p q -> steps t F k q r -> steps t F (S k) p r.
(** squared distance; v is the first of the vertices nearest to q *)
Definition gap2 (a b : list R) : R := (nth 0 a 0 - nth 0 b 0) ^ 2 + (nth 1 a 0 - nth 1 b 0) ^ 2.
Definition nearest (p : list (list R)) (q : list R) (v : nat) : Prop :=
  (v < length p)%nat /\ (forall u, (u < length p)%nat -> gap2 (nth v p []) q <= gap2 (nth u p []) q) /\
  (forall u, (u < v)%nat -> gap2 (nth v p []) q < gap2 (nth u p []) q).
(** the vertices that are to stay: boundary, and nearest to a requested point (None: nothing requested) *)
Definition asked (pfix : option (list (list R))) : list (list R) := match pfix with None => [] | Some l => l end.
Definition held (t : list (list nat)) (p : list (list R)) (pfix : option (list (list R))) (v : nat) : Prop :=
  on_boundary t v \/ exists q, In q (asked pfix) /\ nearest p q v.
(** no edge of a triangle is longer in q than in p *)
Definition shrunk (t : list (list nat)) (p q : list (list R)) : Prop :=
  forall r a b, In r t -> edge_of r a b -> gap2 (nth a q []) (nth b q []) <= gap2 (nth a p []) (nth b p []).
(** chains of triangles from v to the boundary *)
Inductive reaches_boundary (t : list (list nat)) : nat -> Prop :=
| reach_here : forall v, on_boundary t v -> reaches_boundary t v
| reach_step : forall v u r, In r t -> In v r -> In u r -> v <> u -> reaches_boundary t u -> reaches_boundary t v.
(** from v a vertex of F is reached by going at most n times to another corner of a common triangle *)
Inductive within (t : list (list nat)) (F : nat -> Prop) : nat -> nat -> Prop :=
| within_here : forall n v, F v -> within t F n v
| within_step : forall n v u r, In r t -> In v r -> In u r -> v <> u -> within t F n u -> within t F (S n) v.
(** x keeps the vertices F of p and has every other vertex at the average of its neighbours *)
Definition balanced (t : list (list nat)) (F : nat -> Prop) (p x : list (list R)) : Prop :=
  length x = length p /\
  forall v, (v < length p)%nat -> (F v -> forall j, (j < 2)%nat -> coord x v j = coord p v j) /\ (~ F v -> averages t x x v).
(** no coordinate of p differs from that of x by more than M *)
Definition apart_at_most (M : R) (p x : list (list R)) : Prop :=
  forall v j, (v < length p)%nat -> (j < 2)%nat -> Rabs (coord p v j - coord x v j) <= M.
(** one vertex only is nearest to q *)
Definition no_tie (p : list (list R)) (q : list R) : Prop :=
  forall u v, (u < length p)%nat -> (v < length p)%nat -> (forall w, (w < length p)%nat -> gap2 (nth u p []) q <= gap2 (nth w p []) q) ->
    (forall w, (w < length p)%nat -> gap2 (nth v p []) q <= gap2 (nth w p []) q) -> u = v.
