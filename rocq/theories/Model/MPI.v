(** Point-to-point messages between ranks: blocking comm.send(m, dest, tag) / comm.recv(source, tag).
    This models the message layer the code calls (mpi4py comm.send, comm.recv), not code of /repo: a send may complete early by handing
    the message to a system buffer, or only together with the matching receive; the library decides, message by message.
    A receive takes the earliest message of the named sender that carries its tag; messages of other tags stay. *)
From Coq Require Import List Arith Bool.
Import ListNotations.
Set Implicit Arguments.

Section MPI.
Variable M : Type.
Inductive op := Send (dest tag : nat) (m : M) | Recv (src tag : nat).
(** the earliest message with tag t, and the others *)
Fixpoint take (t : nat) (l : list (nat * M)) : option (M * list (nat * M)) :=
  match l with
  | [] => None
  | (t', m) :: r => if t' =? t then Some (m, r) else match take t r with None => None | Some (m', r') => Some (m', (t', m) :: r') end
  end.
(** remaining operations of every rank; buffered messages (with tags) from a rank to another; what each rank received so far (sender, message) *)
Record net := { prog : nat -> list op; chan : nat -> nat -> list (nat * M); log : nat -> list (nat * M) }.
Definition upd {A} (f : nat -> A) (i : nat) (x : A) : nat -> A := fun j => if j =? i then x else f j.
Definition upd2 {A} (f : nat -> nat -> A) (i j : nat) (x : A) : nat -> nat -> A := fun k l => if (k =? i) && (l =? j) then x else f k l.
(** [step false]: cannot be refused by the library; [step true]: it accepts to buffer a message *)
Inductive step : bool -> net -> net -> Prop :=
| st_rendezvous s p q t m rp rq : p <> q -> prog s p = Send q t m :: rp -> prog s q = Recv p t :: rq -> take t (chan s p q) = None ->
    step false s {| prog := upd (upd (prog s) p rp) q rq; chan := chan s; log := upd (log s) q (log s q ++ [(p, m)]) |}
| st_receive s p q t m c rq : prog s q = Recv p t :: rq -> take t (chan s p q) = Some (m, c) ->
    step false s {| prog := upd (prog s) q rq; chan := upd2 (chan s) p q c; log := upd (log s) q (log s q ++ [(p, m)]) |}
| st_buffer s p q t m rp : prog s p = Send q t m :: rp ->
    step true s {| prog := upd (prog s) p rp; chan := upd2 (chan s) p q (chan s p q ++ [(t, m)]); log := log s |}.
(** n steps of any kind *)
Inductive run : nat -> net -> net -> Prop :=
| run_nil s : run 0 s s
| run_cons n b s s' s'' : step b s s' -> run n s' s'' -> run (S n) s s''.
Definition start (p : nat -> list op) : net := {| prog := p; chan := fun _ _ => []; log := fun _ => [] |}.
Definition finished (s : net) : Prop := forall r, prog s r = [].
End MPI.
Arguments Send {M}. Arguments Recv {M}.
(** collective operations (comm.bcast, comm.allreduce, comm.Reduce) are written with sends and receives; MPI keeps them apart from the
    messages of the code.  Here they carry a tag the code does not use. *)
Definition coll : nat := 0.
