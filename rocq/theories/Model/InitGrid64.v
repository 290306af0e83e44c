(** The initial grid of one process in binary64: create_staggered_grid (generation/utils.py l.7-25) with every operation rounded.
    Not modelled: overflow, NaN, np.mgrid's memory limit. *)
From Coq Require Import List ZArith Reals Bool Arith.
From Flocq Require Import Core.
From Verif Require Import Model.Base Model.FastHJ.
Import ListNotations.
Local Open Scope R_scope.

(** extent of an axis of np.mgrid[slice(lo, hi + h, h)] (l.16): int(math.ceil((stop - start) / (step * 1.0))), 0 if negative *)
Definition n_nodes64 (lo hi h : R) : nat := Z.to_nat (Zceil (rnd64 (rnd64 (rnd64 (hi + h) - lo) / h))).
(** entry k: indices * step + start *)
Definition node64 (lo h : R) (k : nat) : R := rnd64 (rnd64 (INR k * h) + lo).
(** += h0 / 2 in the odd rows (l.19-23) *)
Definition shifted64 (lo h : R) (i k : nat) : R := if Nat.odd i then rnd64 (node64 lo h k + rnd64 (h / 2)) else node64 lo h k.
Definition staggered2_64 (h : R) (b0 b1 : R * R) : list (list R) :=
  flat_map (fun i => map (fun j => [node64 (fst b0) h i; shifted64 (fst b1) h i j])
    (seq 0 (n_nodes64 (fst b1) (snd b1) h))) (seq 0 (n_nodes64 (fst b0) (snd b0) h)).
Definition staggered3_64 (h : R) (b0 b1 b2 : R * R) : list (list R) :=
  flat_map (fun i => flat_map (fun j => map (fun k => [node64 (fst b0) h i; shifted64 (fst b1) h i j; shifted64 (fst b2) h i k])
    (seq 0 (n_nodes64 (fst b2) (snd b2) h))) (seq 0 (n_nodes64 (fst b1) (snd b1) h))) (seq 0 (n_nodes64 (fst b0) (snd b0) h)).
Definition create_staggered_grid64 (h : R) (bbox : list (R * R)) : list (list R) :=
  match bbox with [b0; b1] => staggered2_64 h b0 b1 | [b0; b1; b2] => staggered3_64 h b0 b1 b2 | _ => [] end.
