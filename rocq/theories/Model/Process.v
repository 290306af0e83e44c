(** Programs of ranks whose messages depend on what was received before: blocking comm.send / comm.recv of mpi4py with a named
    partner and tag (the code never receives from "any source" or with "any tag").  Same message layer as Model/MPI.v: a send may complete early by
    handing the message to a system buffer, or only together with the matching receive; a receive takes the earliest message of
    the named sender that carries its tag.  This models the layer the code of /repo calls (migration.py, mesh_generator.py l.852, l.876), not code of /repo. *)
From Coq Require Import List Arith Bool.
From Verif Require Import Model.MPI.
Import ListNotations.
Set Implicit Arguments.

Inductive proc (M A : Type) : Type :=
| Done (a : A)
| Out (dest tag : nat) (m : M) (k : proc M A)
| Inp (src tag : nat) (k : M -> proc M A).
Arguments Done {M A}. Arguments Out {M A}. Arguments Inp {M A}.
(** sequencing *)
Fixpoint pbind {M A C} (p : proc M A) (f : A -> proc M C) : proc M C :=
  match p with
  | Done a => f a
  | Out d t m k => Out d t m (pbind k f)
  | Inp s t k => Inp s t (fun m => pbind (k m) f)
  end.

Section Net.
Variables M A : Type.
(** the rest of every rank's program; buffered messages (with tags) from a rank to another *)
Record pnet := PNet { pp : nat -> proc M A; pc : nat -> nat -> list (nat * M) }.
(** [pstep false]: cannot be refused by the library; [pstep true]: it accepts to buffer a message *)
Inductive pstep : bool -> pnet -> pnet -> Prop :=
| ps_rendezvous s p q t m kp kq : p <> q -> pp s p = Out q t m kp -> pp s q = Inp p t kq -> take t (pc s p q) = None ->
    pstep false s (PNet (upd (upd (pp s) p kp) q (kq m)) (pc s))
| ps_receive s p q t m c kq : pp s q = Inp p t kq -> take t (pc s p q) = Some (m, c) ->
    pstep false s (PNet (upd (pp s) q (kq m)) (upd2 (pc s) p q c))
| ps_buffer s p q t m kp : pp s p = Out q t m kp ->
    pstep true s (PNet (upd (pp s) p kp) (upd2 (pc s) p q (pc s p q ++ [(t, m)]))).
(** n steps, those allowed by [ok] *)
Inductive prun (ok : bool -> Prop) : nat -> pnet -> pnet -> Prop :=
| prun_nil s : prun ok 0 s s
| prun_cons n b s s' s'' : ok b -> pstep b s s' -> prun ok n s' s'' -> prun ok (S n) s s''.
Definition anything (b : bool) : Prop := True.
Definition no_buffering (b : bool) : Prop := b = false.
Definition pstart (P : nat -> proc M A) : pnet := PNet P (fun _ _ => []).
(** rank r has ended with result a *)
Definition ended (s : pnet) (r : nat) (a : A) : Prop := pp s r = Done a.
Definition all_ended (s : pnet) : Prop := forall r, exists a, ended s r a.
End Net.
