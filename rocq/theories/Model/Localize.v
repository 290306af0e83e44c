(** Model of migration.py l.16-69 (localize_sizing_function, localize_points) and mesh_generator.py l.787-805 (_user_defined_points)
    as message programs. *)
From Coq Require Import List ZArith Reals Bool Arith.
From Verif Require Import Model.Base Model.MPI Model.InitGrid Model.Blocker.
Import ListNotations.

(** what rank 0 sends: a local interpolant (grid vectors, values at the grid points, l.36-44), a block of points, or all extents *)
Inductive lmsg := LSizing (vecs : list (list R)) (vals : list R) | LBlock (b : list (list R)) | LExtents (e : list (list R)).
(** np.mgrid of the grid vectors, first axis slowest (l.31-33; mgrid and arange agree in exact arithmetic) *)
Fixpoint grid_of (vecs : list (list R)) : list (list R) :=
  match vecs with [] => [[]] | v :: t => flat_map (fun x => map (cons x) (grid_of t)) v end.
(** l.24-40: the interpolant of rank r, fh evaluated at the points of its grid *)
Definition local_sizing (fh : list R -> R) (bbox : list (R * R)) (size axis : nat) (h0 : R) (r : nat) : lmsg :=
  let vecs := sizing_vectors bbox r size axis h0 in LSizing vecs (map fh (grid_of vecs)).
(** l.23-51: rank 0 sends to r = 1, 2, ... in turn, the others receive once *)
Definition localize_sizing (lfh : nat -> lmsg) (size rank : nat) : list (op lmsg) :=
  if (rank =? 0)%nat then map (fun r => Send r 11%nat (lfh r)) (seq 1 (size - 1)) else if (rank <? size)%nat then [Recv 0%nat 11%nat] else [].
(** comm.bcast(x, 0): the root sends to every other rank *)
Definition bcast (size rank : nat) (m : lmsg) : list (op lmsg) :=
  if (rank =? 0)%nat then map (fun r => Send r coll m) (seq 1 (size - 1)) else if (rank <? size)%nat then [Recv 0%nat coll] else [].
(** l.59-68 on rank 0; blocks[local] beyond the end raises IndexError, after which rank 0 sends nothing *)
Fixpoint deal (size : nat) (blocks : list (list (list R))) (extents : list (list R)) (locals : list nat) : list (op lmsg) :=
  match locals with
  | [] => []
  | local :: rest => match nth_error blocks local with
      | None => []
      | Some b => Send local 12%nat (LBlock b) :: bcast size 0 (LExtents extents) ++ deal size blocks extents rest
      end
  end.
(** l.59-68 *)
Definition localize_points (size rank : nat) (blocks : list (list (list R))) (extents : list (list R)) : list (op lmsg) :=
  if (rank =? 0)%nat then deal size blocks extents (seq 1 (size - 1))
  else if (rank <? size)%nat then flat_map (fun local => (if (rank =? local)%nat then [Recv 0%nat 12%nat] else []) ++ [Recv 0%nat coll]) (seq 1 (size - 1)) else [].
(** mesh_generator.py l.787-801 with more than one rank; an exception of blocker ends rank 0 *)
Definition user_defined_points (lfh : nat -> lmsg) (size : nat) (blk : result (list (list (list R)) * list (list R))) (rank : nat) : list (op lmsg) :=
  if (rank =? 0)%nat then match blk with
    | Ok (blocks, extents) => localize_sizing lfh size 0 ++ localize_points size 0 blocks extents
    | _ => []
    end
  else localize_sizing lfh size rank ++ localize_points size rank [] [].
(** the values the variables lfh, points and extents of a rank > 0 end with, reading the received messages in program order
    (migration.py l.50, l.63, l.68) *)
Fixpoint read_points (rank : nat) (locals : list nat) (msgs : list lmsg) (pe : option lmsg * option lmsg) : option lmsg * option lmsg :=
  match locals with
  | [] => pe
  | local :: rest =>
      let '(pts, m1) := if (rank =? local)%nat then (hd_error msgs, tl msgs) else (fst pe, msgs) in
      read_points rank rest (tl m1) (pts, hd_error m1)
  end.
Definition local_result (size rank : nat) (log : list (nat * lmsg)) : option lmsg * (option lmsg * option lmsg) :=
  (hd_error (map snd log), read_points rank (seq 1 (size - 1)) (tl (map snd log)) (None, None)).
