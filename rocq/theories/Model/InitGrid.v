(** Model of the initial point grids: generation/utils.py l.7-45 and the grid of migration.localize_sizing_function
    (migration/migration.py l.16-52).  Exact real arithmetic. *)
From Coq Require Import List ZArith Reals Bool Arith.
From Flocq Require Import Core.
From Verif Require Import Model.Base.
Import ListNotations.
Local Open Scope R_scope.

(** number of entries of np.mgrid[slice(start, stop, step)] and np.arange(start, stop, step): int(ceil((stop - start) / step)), 0 if negative *)
Definition n_nodes (start stop step : R) : nat := Z.to_nat (Zceil ((stop - start) / step)).
(** entry number k *)
Definition node (start step : R) (k : nat) : R := start + INR k * step.
Definition arange (start stop step : R) : list R := map (node start step) (seq 0 (n_nodes start stop step)).
(** create_staggered_grid, generation/utils.py l.15-25; bbox is the list of the (min, max) of the axes.  odd (l.7-12) of the first
    extent; points[1].shape[0] (l.20) is the first extent too.  reshape(dim, -1).T (l.24): last axis fastest. *)
Definition shift (h0 : R) (i : nat) : R := if Nat.odd i then h0 / 2 else 0.
Definition staggered2 (h0 : R) (b0 b1 : R * R) : list (list R) :=
  flat_map (fun i => map (fun j => [node (fst b0) h0 i; node (fst b1) h0 j + shift h0 i])
    (seq 0 (n_nodes (fst b1) (snd b1 + h0) h0))) (seq 0 (n_nodes (fst b0) (snd b0 + h0) h0)).
Definition staggered3 (h0 : R) (b0 b1 b2 : R * R) : list (list R) :=
  flat_map (fun i => flat_map (fun j => map (fun k => [node (fst b0) h0 i; node (fst b1) h0 j + shift h0 i; node (fst b2) h0 k + shift h0 i])
    (seq 0 (n_nodes (fst b2) (snd b2 + h0) h0))) (seq 0 (n_nodes (fst b1) (snd b1 + h0) h0))) (seq 0 (n_nodes (fst b0) (snd b0 + h0) h0)).
Definition create_staggered_grid (h0 : R) (bbox : list (R * R)) : list (list R) :=
  match bbox with [b0; b1] => staggered2 h0 b0 b1 | [b0; b1; b2] => staggered3 h0 b0 b1 b2 | _ => [] end.
(** entry number i of np.linspace(lo, hi, size + 1) *)
Definition limit (b : R * R) (size i : nat) : R := fst b + INR i * ((snd b - fst b) / INR size).
(** make_init_points, l.28-45: the box of the rank along the split axis (l.36-42) *)
Definition local_span (b : R * R) (size rank : nat) (h0 : R) : R * R :=
  let lo := limit b size rank in let hi := limit b size (S rank) in
  match rank with
  | O => (lo, hi)
  | S r => let start := limit b size r in (node start h0 (n_nodes start (lo + h0) h0 - 1) + h0, hi)
  end.
Definition make_init_points (bbox : list (R * R)) (rank size axis : nat) (h0 : R) : list (list R) :=
  create_staggered_grid h0 (map (fun i => if (i =? axis)%nat then local_span (nth i bbox (0, 0)) size rank h0 else nth i bbox (0, 0)) (seq 0 (length bbox))).
(** localize_sizing_function, migration.py l.26-37: the grid vectors of rank r *)
Definition sizing_span (b : R * R) (size rank : nat) : R * R := (limit b size rank, limit b size (S rank)).
Definition sizing_vectors (bbox : list (R * R)) (rank size axis : nat) (h0 : R) : list (list R) :=
  map (fun i => let b := if (i =? axis)%nat then sizing_span (nth i bbox (0, 0)) size rank else nth i bbox (0, 0) in
     arange (fst b - 3 * h0) (snd b + 3 * h0) h0) (seq 0 (length bbox)).
