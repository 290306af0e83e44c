(** Vocabulary of mesh topology, independent of the code: entities are rows of vertex numbers. *)
From Coq Require Import List Arith Bool.
Import ListNotations.

(** a simplex row: n different vertices *)
Definition simplex (n : nat) (r : list nat) : Prop := length r = n /\ NoDup r.
(** a and b are two different corners of r *)
Definition edge_of (r : list nat) (a b : nat) : Prop :=
  exists i j, i < length r /\ j < length r /\ i <> j /\ nth i r 0 = a /\ nth j r 0 = b.
(** number of entities of t having all of f among their corners *)
Definition has (r : list nat) (v : nat) : bool := existsb (Nat.eqb v) r.
Definition entities_on (f : list nat) (t : list (list nat)) : nat := length (filter (fun r => forallb (has r) f) t).
(** increasing rows *)
Fixpoint increasing (l : list nat) : Prop := match l with x :: ((y :: _) as t) => x < y /\ increasing t | _ => True end.
(** number of edges of the list meeting v *)
Definition degree (v : nat) (es : list (list nat)) : nat := length (filter (fun e => has e v) es).
(** lexicographically increasing list of pairs *)
Definition pair_lt (x y : nat * nat) : Prop := fst x < fst y \/ (fst x = fst y /\ snd x < snd y).
Fixpoint pairs_increasing (l : list (nat * nat)) : Prop :=
  match l with x :: ((y :: _) as t) => pair_lt x y /\ pairs_increasing t | _ => True end.
(** a closed walk or open trail along edges *)
Definition walks (vs : list nat) (es : list (list nat)) : Prop :=
  length vs = S (length es) /\
  forall i, i < length es -> nth i es [] = [nth i vs 0; nth (S i) vs 0] \/ nth i es [] = [nth (S i) vs 0; nth i vs 0].
(** two edges of the list share a vertex / are joined by a chain of such steps *)
Definition touch (es : list (list nat)) (e f : list nat) : Prop := In e es /\ In f es /\ exists v, In v e /\ In v f.
Inductive joined (es : list (list nat)) (e : list nat) : list nat -> Prop :=
| joined_refl : joined es e e
| joined_step : forall f g, joined es e f -> touch es f g -> joined es e g.
(** entity number e touches the boundary of t *)
Definition touches (dim : nat) (t : list (list nat)) (e : nat) : Prop :=
  exists v f, In v (nth e t []) /\ In v f /\ increasing f /\ length f = dim /\ entities_on f t = 1.
(** the pair e joins a and b; number of pairs joining a and b; row r has both among its corners *)
Definition joins (a b : nat) (e : nat * nat) : bool := ((fst e =? a) && (snd e =? b)) || ((fst e =? b) && (snd e =? a)).
Definition reports (a b : nat) (es : list (nat * nat)) : nat := length (filter (joins a b) es).
Definition contains (a b : nat) (r : list nat) : bool := has r a && has r b.
