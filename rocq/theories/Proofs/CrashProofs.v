(** What the surviving processes see is what they see in some run without crashes. *)
From Coq Require Import List Arith Bool Lia Classical.
From Verif Require Import Model.MPI Model.Process Model.Crash Proofs.ProcessProofs.
Import ListNotations.

Section Crash.
Variables M A : Type.
Notation cnet := (cnet M A).
Notation pnet := (pnet M A).

Lemma take_prefix t (l : list (nat * M)) : forall m c rest, take t l = Some (m, c) -> take t (l ++ rest) = Some (m, c ++ rest).
Proof.
  induction l as [|[t' x] l IH]; intros m c rest H; cbn [take app] in *; [discriminate|]. destruct (t' =? t); [injection H as <- <-; reflexivity|].
  destruct (take t l) as [[m' r']|]; [|discriminate]. injection H as <- <-. rewrite (IH _ _ rest eq_refl). reflexivity.
Qed.
(** the crash-free run next to it: the same programs; messages of the dead may have been lost *)
Definition beside (c : cnet) (s : pnet) : Prop := pp (net_of c) = pp s /\ forall p q, exists lost, pc s p q = pc (net_of c) p q ++ lost /\ (dead c p = false -> lost = []).
Lemma beside_step c c' s : cstep c c' -> beside c s -> exists n s', prun (@anything) n s s' /\ beside c' s'.
Proof.
  intros ST (EP & EC). assert (one : forall b z, pstep b s z -> exists n s', prun (@anything) n s s' /\ s' = z).
  { intros b z Z. exists 1, z. split; [|reflexivity]. eapply prun_cons; [exact I|exact Z|constructor]. }
  destruct ST as [st dd p q t m kp kq Dp Dq NE E1 E2 E3|st dd p q t m c kq Dq E1 E2|st dd p q t m kp Dp E1|st dd p kept K]; cbn [net_of dead] in *.
  - destruct (EC p q) as (l & L1 & L2). rewrite (L2 Dp), app_nil_r in L1.
    destruct (one false (PNet (upd (upd (pp s) p kp) q (kq m)) (pc s))) as (n & s' & R & ->); [apply (@ps_rendezvous M A s p q t m kp kq); [exact NE|congruence|congruence|congruence]|].
    exists n. eexists. split; [exact R|]. split; cbn [net_of pp pc dead]; [rewrite EP; reflexivity|exact EC].
  - destruct (EC p q) as (l & L1 & L2). assert (T : take t (pc s p q) = Some (m, c ++ l)) by (rewrite L1; apply take_prefix, E2).
    destruct (one false (PNet (upd (pp s) q (kq m)) (upd2 (pc s) p q (c ++ l)))) as (n & s' & R & ->); [eapply (@ps_receive M A s p q t m); [congruence|exact T]|].
    exists n. eexists. split; [exact R|]. split; cbn [net_of pp pc dead]; [rewrite EP; reflexivity|]. intros a b. unfold upd2. destruct ((a =? p) && (b =? q)) eqn:Q; [|apply EC].
    exists l. split; [reflexivity|]. apply andb_true_iff in Q as [Qa _]. apply Nat.eqb_eq in Qa as ->. exact L2.
  - destruct (EC p q) as (l & L1 & L2). rewrite (L2 Dp), app_nil_r in L1.
    destruct (one true (PNet (upd (pp s) p kp) (upd2 (pc s) p q (pc s p q ++ [(t, m)])))) as (n & s' & R & ->); [apply (@ps_buffer M A s p q t m kp); congruence|].
    exists n. eexists. split; [exact R|]. split; cbn [net_of pp pc dead]; [rewrite EP; reflexivity|]. intros a b. unfold upd2. destruct ((a =? p) && (b =? q)) eqn:Q; [|apply EC].
    exists []. rewrite app_nil_r, L1. auto.
  - exists 0, s. split; [constructor|]. split; cbn [net_of pp pc dead]; [exact EP|]. intros a b. destruct (EC a b) as (l & L1 & L2). unfold upd. destruct (Nat.eqb_spec a p) as [-> |N].
    + destruct (K b) as (lost & E). exists (lost ++ l). rewrite L1, E, app_assoc. split; [reflexivity|discriminate].
    + exists l. auto.
Qed.
Lemma prun_app ok n (s s' s'' : pnet) k : prun ok n s s' -> prun ok k s' s'' -> prun ok (n + k) s s''.
Proof. intros R. induction R as [s|n b s s1 s2 O ST R IH]; intros R2; [exact R2|]. cbn [plus]. eapply prun_cons; [exact O|exact ST|apply IH, R2]. Qed.
Lemma beside_run c c' : crun c c' -> forall s, beside c s -> exists n s', prun (@anything) n s s' /\ beside c' s'.
Proof.
  intros R. induction R as [c|c c1 c2 ST R IH]; intros s B; [exists 0, s; split; [constructor|exact B]|].
  destruct (beside_step _ _ _ ST B) as (n & s1 & R1 & B1). destruct (IH _ B1) as (k & s2 & R2 & B2). exists (n + k), s2. split; [eapply prun_app; eassumption|exact B2].
Qed.
Theorem crash_free (P : nat -> proc M A) c : crun (cstart P) c -> exists n s, prun (@anything) n (pstart P) s /\ pp s = pp (net_of c).
Proof.
  intros R. destruct (beside_run _ _ R (pstart P)) as (n & s & R' & B); [split; [reflexivity|]; intros p q; exists []; auto|]. exists n, s. split; [exact R'|]. symmetry. apply B.
Qed.

(** ---- completion of a run that cannot get stuck ---- *)
Lemma completes (P : nat -> proc M A) N : (forall n s, prun (@anything) n (pstart P) s -> n <= N /\ (~ all_ended s -> exists s', pstep false s s')) ->
  forall n s, prun (@anything) n (pstart P) s -> exists k s', prun no_buffering k s s' /\ all_ended s'.
Proof.
  intros H n s R. destruct (H n s R) as (L & _). remember (N - n) as d eqn:E. revert n s R L E. induction d as [|d IH]; intros n s R L E.
  - destruct (classic (all_ended s)) as [Y|Y]; [exists 0, s; split; [constructor|exact Y]|]. destruct (proj2 (H n s R) Y) as (s' & ST).
    pose proof (prun_snoc _ _ _ _ _ _ _ _ R I ST) as R'. destruct (H _ _ R'). lia.
  - destruct (classic (all_ended s)) as [Y|Y]; [exists 0, s; split; [constructor|exact Y]|]. destruct (proj2 (H n s R) Y) as (s' & ST).
    pose proof (prun_snoc _ _ _ _ _ _ _ _ R I ST) as R'. destruct (H _ _ R') as (L' & _). destruct (IH (S n) s' R' L' ltac:(lia)) as (k & s'' & R2 & Z).
    exists (S k), s''. split; [|exact Z]. eapply prun_cons; [reflexivity|exact ST|exact R2].
Qed.

(** ---- programs whose last action is a send to rank 0 ---- *)
Variable last : A.
Fixpoint closing (p : proc M A) : Prop :=
  match p with
  | Done _ => True
  | Out q _ _ k => (k = Done last -> q = 0) /\ closing k
  | Inp _ _ k => forall m, k m <> Done last /\ closing (k m)
  end.
Lemma closing_bind {X} (p : proc M X) f : (forall a, f a <> Done last /\ closing (f a)) -> pbind p f <> Done last /\ closing (pbind p f).
Proof.
  intros H. induction p as [a|q t m k IH|q t k IH]; cbn [pbind closing]; [apply H| |].
  - split; [discriminate|]. split; [intros E; destruct (proj1 IH E)|apply IH].
  - split; [discriminate|]. intros m. apply IH.
Qed.
Definition running (p : proc M A) : Prop := match p with Done _ => False | _ => True end.
(** while rank 0 has ended, nobody who is still running gets to [last] without buffering *)
Lemma never_last n s s' r a : prun no_buffering n s s' -> (forall q, 0 < q -> closing (pp s q)) -> pp s 0 = Done a -> 0 < r -> running (pp s r) -> pp s' r <> Done last.
Proof.
  intros R. induction R as [s|n b s s1 s2 O ST R IH]; intros C E0 R0 RU; [intros X; rewrite X in RU; destruct RU|].
  unfold no_buffering in O. subst b.
  assert (G : pp s1 0 = Done a /\ (forall q, 0 < q -> closing (pp s1 q)) /\ (running (pp s1 r) \/ exists x, pp s1 r = Done x /\ x <> last)).
  { inversion ST as [s0 p q t m kp kq N E1 E2 E3 E4 E5|s0 p q t m c kq E1 E2 E3 E4|]; subst; cbn [pp].
    - assert (P0 : p <> 0) by (intros ->; congruence). assert (Q0 : q <> 0) by (intros ->; congruence).
      pose proof (C p ltac:(lia)) as Cp. rewrite E1 in Cp. destruct Cp as (Cp1 & Cp2). pose proof (C q ltac:(lia)) as Cq. rewrite E2 in Cq. cbn in Cq. destruct (Cq m) as (Cq1 & Cq2).
      split; [unfold upd; destruct (Nat.eqb_spec 0 q); [congruence|]; destruct (Nat.eqb_spec 0 p); [congruence|exact E0]|]. split.
      + intros x X. unfold upd. destruct (Nat.eqb_spec x q); [exact Cq2|]. destruct (Nat.eqb_spec x p); [exact Cp2|apply C, X].
      + unfold upd. destruct (Nat.eqb_spec r q) as [-> |].
        * destruct (kq m) as [x| |] eqn:K; [|left; exact I|left; exact I]. right. exists x. split; [reflexivity|]. intros ->. congruence.
        * destruct (Nat.eqb_spec r p) as [-> |]; [|left; exact RU]. destruct kp as [x| |] eqn:K; [|left; exact I|left; exact I]. right. exists x. split; [reflexivity|].
          intros ->. apply Q0, Cp1. reflexivity.
    - assert (Q0 : q <> 0) by (intros ->; congruence). pose proof (C q ltac:(lia)) as Cq. rewrite E1 in Cq. cbn in Cq. destruct (Cq m) as (Cq1 & Cq2).
      split; [unfold upd; destruct (Nat.eqb_spec 0 q); [congruence|exact E0]|]. split.
      + intros x X. unfold upd. destruct (Nat.eqb_spec x q); [exact Cq2|apply C, X].
      + unfold upd. destruct (Nat.eqb_spec r q) as [-> |]; [|left; exact RU].
        destruct (kq m) as [x| |] eqn:K; [|left; exact I|left; exact I]. right. exists x. split; [reflexivity|]. intros ->. congruence. }
  destruct G as (G0 & GC & [GR | (x & GX & GN)]); [apply IH; assumption|].
  destruct (prun_bruns _ _ _ _ _ _ R) as (k & _ & B). pose proof (ended_kept _ _ _ _ _ _ _ B GX) as K. unfold ended in K. rewrite K. congruence.
Qed.
Lemma closing_run (P : nat -> proc M A) ok n s : prun ok n (pstart P) s -> (forall q, 0 < q -> closing (P q)) -> forall q, 0 < q -> closing (pp s q).
Proof.
  intros R H. assert (G : forall s0, prun ok n s0 s -> (forall q, 0 < q -> closing (pp s0 q)) -> forall q, 0 < q -> closing (pp s q)); [|exact (G _ R H)].
  clear. intros s0 R. induction R as [s0|n b s s' s'' OK ST RN IH]; [auto|]. intros H. apply IH. clear IH RN.
  inversion ST as [s1 a q u m kp kq N E1 E2 E3 E4 E5|s1 a q u m c kq E1 E2 E3 E4|s1 a q u m kp E1 E2 E3]; subst; cbn [pp]; intros r R0; unfold upd; pose proof (H r R0) as Hr.
  - destruct (Nat.eqb_spec r q) as [-> |]; [rewrite E2 in Hr; apply Hr|]. destruct (Nat.eqb_spec r a) as [-> |]; [rewrite E1 in Hr; apply Hr|exact Hr].
  - destruct (Nat.eqb_spec r q) as [-> |]; [rewrite E1 in Hr; apply Hr|exact Hr].
  - destruct (Nat.eqb_spec r a) as [-> |]; [rewrite E1 in Hr; apply Hr|exact Hr].
Qed.
End Crash.
