(** Model of laplacian2 and laplacian2_fixed_point (geometry/utils.py l.472-631).  Exact real arithmetic; pyamg is an oracle (any exact
    solution of the system).  Points are rows [x; y]; entities are rows of three vertex numbers. *)
From Coq Require Import List ZArith Reals Bool Arith.
From Verif Require Import Model.Base Model.SDF Model.Simplex Model.Mesh.
Import ListNotations.
Local Open Scope R_scope.

Definition rtotal (l : list R) : R := fold_right Rplus 0 l.

(** _sparse, l.472-491, on the index arrays of l.588-593: entries (row, column) with value 1; duplicates add up *)
Definition adj_entries (t : list (list nat)) : list (nat * nat) :=
  flat_map (fun r => map (fun ij => (nth (fst ij) r O, nth (snd ij) r O)) [(0,1);(0,2);(1,0);(1,2);(2,0);(2,1)]%nat) t.
(** columns of the entries in row v (with repetition): S[v,:]; W[v] (l.602) is their number *)
Definition nbrs (t : list (list nat)) (v : nat) : list nat :=
  map snd (filter (fun e => (fst e =? v)%nat) (adj_entries t)).

(** _closest_node, l.575-579: np.argmin returns the first minimum *)
Definition sq2 (p q : list R) : R := rtotal (map (fun d => d * d) (map2 Rminus p q)).
Fixpoint argmin_from (i best : nat) (bv : R) (l : list R) : nat :=
  match l with [] => best | x :: t => if Rltb x bv then argmin_from (S i) i x t else argmin_from (S i) best bv t end.
Definition argmin (l : list R) : nat := match l with [] => O | x :: t => argmin_from 1 0 x t end.
Definition closest_node (q : list R) (p : list (list R)) : nat := argmin (map (fun r => sq2 r q) p).

(** l.615-616: one sweep *)
Definition lap_sweep (t : list (list nat)) (fixed : list nat) (p : list (list R)) : list (list R) :=
  map (fun v =>
    if existsb (Nat.eqb v) fixed then nth v p []
    else map (fun j => rtotal (map (fun u => nth j (nth u p []) 0) (nbrs t v)) / INR (length (nbrs t v))) [0; 1]%nat)
  (seq 0 (length p)).
(** l.609-613, 618-621: edge lengths floored at eps *)
Definition eps52 : R := / 2 ^ 52.
Definition edge_lens (es : list (list nat)) (p : list (list R)) : list R :=
  map (fun e => let l := sub_len (nth (nth 0 e O) p []) (nth (nth 1 e O) p []) in if Rltb l eps52 then eps52 else l) es.
Fixpoint lap_loop (k : nat) (t : list (list nat)) (fixed : list nat) (es : list (list nat)) (tol : R) (L : list R) (p : list (list R)) : list (list R) :=
  match k with
  | O => p
  | S k' =>
      let p' := lap_sweep t fixed p in
      let L' := edge_lens es p' in
      let move := max_list (map2 (fun ln l => (ln - l) / ln) L' L) in
      if Rltb move tol then p' else lap_loop k' t fixed es tol L' p'
  end.
(** l.550-631.  [uniq]: np.unique of rows (any order); pfix = None is the default.  Simplification: vertex numbers are below the
    number of points.  An empty list of boundary vertices or of fixed points is an array of floats, so that (l.602-603) the index
    array bnd becomes one and indexing with it (l.617) raises IndexError. *)
Definition laplacian2 (uniq : list (list nat) -> list (list nat)) (p : list (list R)) (t : list (list nat)) (max_iter : nat) (tol : R)
    (pfix : option (list (list R))) : result (list (list R) * list (list nat)) :=
  let bnd := get_boundary_vertices uniq 2 t in
  let fixed := bnd ++ map (fun q => closest_node q p) (match pfix with None => [] | Some l => l end) in
  let es := get_edges 2 t in
  if existsb (fun v => (length (nbrs t v) =? 0)%nat) (seq 0 (length p)) then Ok (p, t)
  else match bnd, pfix, max_iter with
       | [], _, S _ => Err IndexError
       | _, Some [], S _ => Err IndexError
       | _, _, _ => Ok (lap_loop max_iter t fixed es tol (edge_lens es p) p, t)
       end.

(** laplacian2_fixed_point, l.512-539.  The coo entries: for the local edges (1,2), (2,0), (0,1) of every triangle +1 on both
    diagonal places and -1 on both off-diagonal places (l.514-522); duplicates add up (tocsr). *)
Definition coo_entries (t : list (list nat)) : list (nat * nat * R) :=
  flat_map (fun r => flat_map (fun ij => let a := nth (fst ij) r O in let b := nth (snd ij) r O in
     [(a, a, 1); (b, b, 1); (a, b, -1); (b, a, -1)]) [(1,2);(2,0);(0,1)]%nat) t.
Definition coo_at (t : list (list nat)) (v u : nat) : R :=
  rtotal (map (fun e => snd e) (filter (fun e => (fst (fst e) =? v)%nat && (snd (fst e) =? u)%nat) (coo_entries t))).
(** l.529-536: rows of boundary vertices become identity rows *)
Definition lap_matrix (bnd : list nat) (t : list (list nat)) (v u : nat) : R :=
  if existsb (Nat.eqb v) bnd then (if (v =? u)%nat then 1 else 0) else coo_at t v u.
(** l.538-539 *)
Definition lap_rhs (bnd : list nat) (p : list (list R)) (v j : nat) : R :=
  if existsb (Nat.eqb v) bnd then nth j (nth v p []) 0 else 0.
(** l.544-545: x is what the solver returns; exact solution of both systems *)
Definition lap_solves (uniq : list (list nat) -> list (list nat)) (p : list (list R)) (t : list (list nat)) (x : list (list R)) : Prop :=
  let bnd := get_boundary_vertices uniq 2 t in
  length x = length p /\
  forall v j, (v < length p)%nat -> (j < 2)%nat ->
    rtotal (map (fun u => lap_matrix bnd t v u * nth j (nth u x []) 0) (seq 0 (length p))) = lap_rhs bnd p v j.
