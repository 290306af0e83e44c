(** Model of decomp/blocker.py: decomposition of the user's points into one block per rank.  Reals with a rounding function
    [rnd] applied to the result of every floating-point operation (the identity for exact arithmetic); no NaN and no infinities. *)
From Coq Require Import List ZArith Reals Bool Arith.
From Verif Require Import Model.Base.
Import ListNotations.
Local Open Scope R_scope.

Section Blocker.
Variable rnd : R -> R.
(** EPS = np.finfo(float).eps, l.10 *)
Definition eps : R := / 2 ^ 52.
Definition column (k : nat) (points : list (list R)) : list R := map (fun p => nth k p 0) points.
(** l.16-19 *)
Definition lims (points : list (list R)) (k : nat) : R * R :=
  (rnd (min_list (column k points) - eps), rnd (max_list (column k points) + eps)).
(** step of np.linspace(lo, hi, m, endpoint=False), and dx, dy, dz (l.28-29, 37-39, 48-49, 57-59, 67-69): (hi - lo) / m *)
Definition step_of (l : R * R) (m : nat) : R := rnd (rnd (snd l - fst l) / INR m).
(** entries of np.linspace(lo, hi, m, endpoint=False): arange(m) * step + lo *)
Definition linspace (l : R * R) (m : nat) : list R := map (fun i => rnd (rnd (INR i * step_of l m) + fst l)) (seq 0 m).
(** l.21-69: numbers of subdivisions of the axes, and the divisors of dx, dy, dz.  For axis 2 they differ (l.62-69: yy has num_blocks
    entries but dy is the whole extent).  [None]: UnboundLocalError (axis 2 with 2D points, any other axis) *)
Definition divisions (dim axis num_blocks : nat) : option (list nat * list nat) :=
  match dim, axis with
  | 2%nat, 0%nat => Some ([1; num_blocks], [1; num_blocks])
  | 2%nat, 1%nat => Some ([num_blocks; 1], [num_blocks; 1])
  | 3%nat, 0%nat => Some ([1; num_blocks; 1], [1; num_blocks; 1])
  | 3%nat, 1%nat => Some ([num_blocks; 1; 1], [num_blocks; 1; 1])
  | 3%nat, 2%nat => Some ([1; num_blocks; num_blocks], [1; 1; num_blocks])
  | _, _ => None
  end%nat.
(** np.meshgrid (default indexing 'xy') and ravel: y is the slowest axis, then x, then z *)
Definition lows (vecs : list (list R)) : list (list R) :=
  match vecs with
  | [xs; ys] => flat_map (fun y => map (fun x => [x; y]) xs) ys
  | [xs; ys; zs] => flat_map (fun y => flat_map (fun x => map (fun z => [x; y; z]) zs) xs) ys
  | _ => []
  end.
(** l.76-81, l.95-102 *)
Fixpoint in_block (low ds p : list R) : bool :=
  match low, ds, p with
  | l :: low', d :: ds', x :: p' => Rgeb x l && Rleb x (rnd (l + d)) && in_block low' ds' p'
  | _, _, _ => true
  end.
(** l.86-90, l.107-111: np.amin, np.amax of each column *)
Definition extent (dim : nat) (block : list (list R)) : list R :=
  map (fun k => min_list (column k block)) (seq 0 dim) ++ map (fun k => max_list (column k block)) (seq 0 dim).
(** l.4-113; points all have dim coordinates *)
Definition blocker (dim : nat) (points : list (list R)) (num_blocks axis : nat) : result (list (list (list R)) * list (list R)) :=
  if ((dim <? 2) || (3 <? dim))%nat then Err ValueError
  else if (num_blocks =? 0)%nat then Err OtherError
  else if negb (1 <? length points / num_blocks)%nat then Err AssertionError
  else match divisions dim axis num_blocks with
  | None => Err OtherError
  | Some (cuts, divs) =>
      let ls := map (lims points) (seq 0 dim) in
      let vecs := map (fun k => linspace (nth k ls (0, 0)) (nth k cuts 1%nat)) (seq 0 dim) in
      let ds := map (fun k => step_of (nth k ls (0, 0)) (nth k divs 1%nat)) (seq 0 dim) in
      let blocks := filter (fun b => negb (length b =? 0)%nat) (map (fun low => filter (in_block low ds) points) (lows vecs)) in
      Ok (blocks, map (extent dim) blocks)
  end.
End Blocker.
