(** Model of migration.py l.72-183: aggregate and exchange as message programs. *)
From Coq Require Import List ZArith Reals Bool Arith.
From Verif Require Import Model.Base Model.MPI.
Import ListNotations.

(** the table of exports: exports[0,0], exports[0,1] and the rows exports[1:] reduced to their first dim columns *)
Record exports := { nsb : nat; nsa : nat; rows : list (list R) }.
(** exchange, l.148-183: the messages of one call, in order.  A message is a list of points.
    l.152-156: nothing to send at all - return at once.  exports[1 : NSB + 1] and exports[NSB + 1 : NSB + 1 + NSA] (l.161, l.172). *)
Definition exchange (size rank : nat) (ex : exports) : list (op (list (list R))) :=
  if ((nsb ex =? 0) && (nsa ex =? 0))%nat then []
  else (if (negb (nsb ex =? 0) && negb (rank =? 0))%nat then [Send (rank - 1) 11 (firstn (nsb ex) (rows ex))] else [])
    ++ (if (negb (rank =? size - 1))%nat then [Recv (rank + 1) 11] else [])
    ++ (if (negb (nsa ex =? 0) && negb (rank =? size - 1))%nat then [Send (rank + 1) 11 (firstn (nsa ex) (skipn (nsb ex) (rows ex)))] else [])
    ++ (if (negb (rank =? 0))%nat then [Recv (rank - 1) 11] else []).
(** l.154, l.165-183: the points returned: tmp, in the order received.  len() of it: np.array([[]]) (l.156) has length 1. *)
Definition returned (log : list (nat * list (list R))) : list (list R) := concat (map snd log).
Definition returned_len (ex : exports) (log : list (nat * list (list R))) : nat :=
  if ((nsb ex =? 0) && (nsa ex =? 0))%nat then 1 else length (returned log).
(** several calls, one per meshing iteration (mesh_generator.py l.460-480 calls exchange once per iteration, without any other communication in between) *)
Definition exchanges (size rank : nat) (exs : list exports) : list (op (list (list R))) := flat_map (exchange size rank) exs.
(** the program of all ranks; ranks from size on do not exist *)
Definition exchange_all (size : nat) (ex : nat -> list exports) : nat -> list (op (list (list R))) :=
  fun r => if (r <? size)%nat then exchanges size r (ex r) else [].
(** mesh_generator.py l.508-510 and l.722-731: delete inv[-recv_ix:] where inv = arange(len(p)); a Python slice [-k:] with k = 0 is everything *)
Definition delete_ghosts {A} (p : list A) (recv_ix : nat) : list A :=
  if (recv_ix =? 0)%nat then [] else firstn (length p - recv_ix) p.

(** aggregate, l.72-112, after fix_mesh: rank r > 0 sends its points then its entities to rank 0 (l.97-99); rank 0 receives them in order (l.100-105).
    comm.Reduce (l.89-90): see reduce_sum. *)
Inductive payload := Points (p : list (list R)) | Cells (t : list (list nat)).
Definition aggregate (size rank : nat) (mesh : list (list R) * list (list nat)) : list (op payload) :=
  if (rank =? 0)%nat then flat_map (fun r => [Recv r 12; Recv r 13]) (seq 1 (size - 1))
  else if (rank <? size)%nat then [Send 0%nat 12%nat (Points (fst mesh)); Send 0%nat 13%nat (Cells (snd mesh))] else [].
(** l.80-90: every rank contributes a vector that is zero except for its own entry; comm.Reduce(..., op=SUM) adds them on rank 0 *)
Definition reduce_sum (size : nat) (len : nat -> nat) : list nat :=
  map (fun i => list_sum (map (fun r => if (r =? i)%nat then len r else 0%nat) (seq 0 size))) (seq 0 size).
(** l.92, np.cumsum *)
Fixpoint cumsum (acc : nat) (l : list nat) : list nat := match l with [] => [] | x :: t => (acc + x)%nat :: cumsum (acc + x) t end.
(** l.92-107 on rank 0: own mesh, lengths of all ranks, received messages in order *)
Fixpoint gather (csum : list nat) (r : nat) (gp : list (list R)) (gt : list (list nat)) (msgs : list payload) : list (list R) * list (list nat) :=
  match msgs with
  | Points p :: Cells t :: rest => gather csum (S r) (gp ++ p) (gt ++ map (map (fun v => (v + nth (r - 1) csum 0)%nat)) t) rest
  | _ => (gp, gt)
  end.
Definition aggregated (own : list (list R) * list (list nat)) (off_p : list nat) (log : list (nat * payload)) : list (list R) * list (list nat) :=
  gather (cumsum 0 off_p) 1 (fst own) (snd own) (map snd log).
