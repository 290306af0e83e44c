(** Determinants by Leibniz' formula, oriented volumes, convex combinations, circumscribed spheres. *)
From Coq Require Import List Arith Reals.
Import ListNotations.
Local Open Scope R_scope.

Fixpoint insertions {A} (x : A) (l : list A) : list (list A) :=
  match l with [] => [[x]] | y :: t => (x :: l) :: map (cons y) (insertions x t) end.
Fixpoint permutations {A} (l : list A) : list (list A) :=
  match l with [] => [[]] | x :: t => flat_map (insertions x) (permutations t) end.
(** number of pairs in the wrong order *)
Fixpoint inversions (l : list nat) : nat :=
  match l with [] => 0%nat | x :: t => (length (filter (fun y => y <? x) t) + inversions t)%nat end.
(** sum over the permutations s of (-1)^(inversions of s) * m(0,s(0)) * m(1,s(1)) * ... ; m is n by n, row by row *)
Definition leibniz (n : nat) (m : list R) : R :=
  fold_right Rplus 0 (map (fun s =>
    (-1) ^ inversions s * fold_right Rmult 1 (map (fun i => nth (n * i + nth i s 0%nat) m 0) (seq 0 n)))
  (permutations (seq 0 n))).

Fixpoint inner (p q : list R) : R := match p, q with x :: p', y :: q' => x * y + inner p' q' | _, _ => 0 end.
Fixpoint vplus (p q : list R) : list R := match p, q with x :: p', y :: q' => (x + y) :: vplus p' q' | _, _ => [] end.
Definition vtimes (s : R) (p : list R) : list R := map (Rmult s) p.
(** s1*p1 + s2*p2 + ... *)
Fixpoint combination (n : nat) (s : list R) (ps : list (list R)) : list R :=
  match s, ps with x :: s', p :: ps' => vplus (vtimes x p) (combination n s' ps') | _, _ => repeat 0 n end.
Definition total (s : list R) : R := fold_right Rplus 0 s.
(** the closed simplex with corners ps / its interior (for corners in general position) *)
Definition in_hull (n : nat) (ps : list (list R)) (q : list R) : Prop :=
  exists s, length s = length ps /\ Forall (fun x => 0 <= x) s /\ total s = 1 /\ q = combination n s ps.
Definition in_open_hull (n : nat) (ps : list (list R)) (q : list R) : Prop :=
  exists s, length s = length ps /\ Forall (fun x => 0 < x) s /\ total s = 1 /\ q = combination n s ps.
(** d+1 points of d coordinates *)
Definition simplex_points (d : nat) (s : list (list R)) : Prop := length s = S d /\ Forall (fun q => length q = d) s.
(** matrix (row by row) times vector *)
Definition apply_matrix (d : nat) (m q : list R) : list R :=
  map (fun i => inner (firstn d (skipn (d * i) m)) q) (seq 0 d).
(** all points of ps are at squared distance r2 of c *)
Fixpoint sqnorm_diff (p q : list R) : R := match p, q with x :: p', y :: q' => (x - y) ^ 2 + sqnorm_diff p' q' | _, _ => 0 end.
Definition circumscribed (ps : list (list R)) (c : list R) (r2 : R) : Prop :=
  Forall (fun p => length p = length c /\ sqnorm_diff p c = r2) ps.
