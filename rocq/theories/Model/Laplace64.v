(** laplacian2 (geometry/utils.py l.550-631) in binary64.  Overflow is not modelled.  [arrange]: the order in which the product of the
    sparse matrix with the coordinates adds the entries of a row (any order; scipy takes them as stored). *)
From Coq Require Import List ZArith Reals Bool Arith.
From Verif Require Import Model.Base Model.FastHJ Model.SDF Model.Simplex Model.Mesh Model.Laplace.
Import ListNotations.
Local Open Scope R_scope.

Definition sum64 (l : list R) : R := fold_left (fun s x => rnd64 (s + x)) l 0.
(** l.575-579: differences, their squares, the sum over the columns *)
Definition sq64 (p q : list R) : R := sum64 (map (fun d => rnd64 (d * d)) (map2 (fun a b => rnd64 (a - b)) p q)).
Definition closest_node64 (q : list R) (p : list (list R)) : nat := argmin (map (fun r => sq64 r q) p).
(** l.615-616: W is a small integer, so it is exact *)
Definition lap_sweep64 (arrange : list nat -> list nat) (t : list (list nat)) (fixed : list nat) (p : list (list R)) : list (list R) :=
  map (fun v =>
    if existsb (Nat.eqb v) fixed then nth v p []
    else map (fun j => rnd64 (sum64 (map (fun u => nth j (nth u p []) 0) (arrange (nbrs t v))) / INR (length (nbrs t v)))) [0; 1]%nat)
  (seq 0 (length p)).
(** l.609-613, 618-621 *)
Definition edge_lens64 (es : list (list nat)) (p : list (list R)) : list R :=
  map (fun e => let l := rnd64 (sqrt (sq64 (nth (nth 0 e O) p []) (nth (nth 1 e O) p []))) in if Rltb l eps52 then eps52 else l) es.
Fixpoint lap_loop64 (arrange : list nat -> list nat) (k : nat) (t : list (list nat)) (fixed : list nat) (es : list (list nat)) (tol : R) (L : list R)
    (p : list (list R)) : list (list R) :=
  match k with
  | O => p
  | S k' =>
      let p' := lap_sweep64 arrange t fixed p in
      let L' := edge_lens64 es p' in
      let move := max_list (map2 (fun ln l => rnd64 (rnd64 (ln - l) / ln)) L' L) in
      if Rltb move tol then p' else lap_loop64 arrange k' t fixed es tol L' p'
  end.
(** l.550-631, as laplacian2 of Model/Laplace.v *)
Definition laplacian2_64 (arrange : list nat -> list nat) (uniq : list (list nat) -> list (list nat)) (p : list (list R)) (t : list (list nat)) (max_iter : nat)
    (tol : R) (pfix : option (list (list R))) : result (list (list R) * list (list nat)) :=
  let bnd := get_boundary_vertices uniq 2 t in
  let fixed := bnd ++ map (fun q => closest_node64 q p) (match pfix with None => [] | Some l => l end) in
  let es := get_edges 2 t in
  if existsb (fun v => (length (nbrs t v) =? 0)%nat) (seq 0 (length p)) then Ok (p, t)
  else match bnd, pfix, max_iter with
       | [], _, S _ => Err IndexError
       | _, Some [], S _ => Err IndexError
       | _, _, _ => Ok (lap_loop64 arrange max_iter t fixed es tol (edge_lens64 es p) p, t)
       end.
