(** Vocabulary of the bar forces, independent of the code. *)
From Coq Require Import Reals List Arith.
From Verif Require Import Spec.MeshTopo.
Import ListNotations.
Local Open Scope R_scope.

Definition coord (p : list (list R)) (v j : nat) : R := nth j (nth v p []) 0.
Definition total (l : list R) : R := fold_right Rplus 0 l.
(** Euclidean distance of two vertices in dimension dim *)
Definition gap (dim : nat) (p : list (list R)) (a b : nat) : R :=
  sqrt (total (map (fun j => (coord p a j - coord p b j) ^ 2) (seq 0 dim))).
(** two vertices are joined by a bar when some cell has both as corners *)
Definition is_bar (t : list (list nat)) (a b : nat) : Prop := exists r, In r t /\ edge_of r a b.
(** E lists every bar of the mesh exactly once *)
Definition all_bars (t : list (list nat)) (E : list (nat * nat)) : Prop :=
  NoDup E /\ forall a b, In (a, b) E <-> (a < b)%nat /\ is_bar t a b.
(** length of a bar; two coincident vertices count as 2^-52 apart *)
Definition bar_length (dim : nat) (p : list (list R)) (a b : nat) : R :=
  if Req_EM_T (gap dim p a b) 0 then / 2 ^ 52 else gap dim p a b.
Definition middle (dim : nat) (p : list (list R)) (a b : nat) : list R :=
  map (fun j => (coord p a j + coord p b j) / 2) (seq 0 dim).
(** the push of a bar of length l whose desired length is w, per unit of the bar's own vector *)
Definition push (l w : R) : R := Rmax 0 (w - l) / l.
(** a mesh of dimension dim: rows of dim+1 different existing vertices, every vertex with dim coordinates *)
Definition mesh (dim : nat) (p : list (list R)) (t : list (list nat)) : Prop :=
  (dim = 2%nat \/ dim = 3%nat) /\ Forall (fun x => length x = dim) p /\ (forall r, In r t -> simplex (S dim) r) /\
  (forall r v, In r t -> In v r -> (v < length p)%nat).
(** the centre of gravity of a cell *)
Definition cell_centre (dim : nat) (p : list (list R)) (r : list nat) : list R :=
  map (fun j => total (map (fun v => coord p v j) r) / INR (S dim)) (seq 0 dim).
