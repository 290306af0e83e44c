(** Processes that are killed (out of memory, node failure) at any moment, over the message layer of Model/Process.v.  A killed process does nothing more.
    Of the messages it has handed to the library but that were not yet received, those to each receiver are delivered in order up to some point and the
    rest is lost.  The others go on; the case that MPI aborts the whole job is the one in which nobody takes another step.  This models the environment the
    code of /repo runs in (mpiexec), not code of /repo. *)
From Coq Require Import List Arith Bool.
From Verif Require Import Model.MPI Model.Process.
Import ListNotations.
Set Implicit Arguments.

Section Crash.
Variables M A : Type.
Record cnet := CNet { net_of : pnet M A; dead : nat -> bool }.
Inductive cstep : cnet -> cnet -> Prop :=
| cs_rendezvous s dd p q t m kp kq : dd p = false -> dd q = false -> p <> q -> pp s p = Out q t m kp -> pp s q = Inp p t kq -> take t (pc s p q) = None ->
    cstep (CNet s dd) (CNet (PNet (upd (upd (pp s) p kp) q (kq m)) (pc s)) dd)
| cs_receive s dd p q t m c kq : dd q = false -> pp s q = Inp p t kq -> take t (pc s p q) = Some (m, c) ->
    cstep (CNet s dd) (CNet (PNet (upd (pp s) q (kq m)) (upd2 (pc s) p q c)) dd)
| cs_buffer s dd p q t m kp : dd p = false -> pp s p = Out q t m kp ->
    cstep (CNet s dd) (CNet (PNet (upd (pp s) p kp) (upd2 (pc s) p q (pc s p q ++ [(t, m)]))) dd)
| cs_crash s dd p kept : (forall q, exists lost, pc s p q = kept q ++ lost) ->
    cstep (CNet s dd) (CNet (PNet (pp s) (fun a q => if a =? p then kept q else pc s a q)) (upd dd p true)).
Inductive crun : cnet -> cnet -> Prop :=
| crun_nil s : crun s s
| crun_cons s s' s'' : cstep s s' -> crun s' s'' -> crun s s''.
(** all processes alive, no message under way *)
Definition cstart (P : nat -> proc M A) : cnet := CNet (pstart P) (fun _ => false).
End Crash.
