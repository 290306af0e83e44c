(** C88: the outcome of the parallel code does not depend on timing.  Every rank's program is built from blocking sends and receives
    with a named partner, each message depending on what was received before; a run is any interleaving of the ranks in which
    the message layer may buffer any sends or none. *)
From Coq Require Import List Arith Bool Lia.
From Verif Require Import Model.MPI Model.Process Proofs.Choreo Proofs.ProcessProofs.
Import ListNotations.

(** What a rank returns is the same in all runs in which it returns. *)
Theorem C88_same_result_in_all_runs : forall M A (P : nat -> proc M A) n1 s1 n2 s2 r a1 a2,
  prun (@anything) n1 (pstart P) s1 -> prun (@anything) n2 (pstart P) s2 -> ended s1 r a1 -> ended s2 r a2 -> a1 = a2.
Proof.
  intros M A P n1 s1 n2 s2 r a1 a2 R1 R2 E1 E2. destruct (prun_bruns _ _ _ _ _ _ R1) as (k1 & _ & B1). destruct (prun_bruns _ _ _ _ _ _ R2) as (k2 & _ & B2).
  destruct (confluent _ _ _ _ _ B2 _ _ B1) as (a & b & s3 & C1 & C2). pose proof (ended_kept _ _ _ _ _ _ _ C1 E1) as K1. pose proof (ended_kept _ _ _ _ _ _ _ C2 E2) as K2.
  unfold ended in *. congruence.
Qed.
Print Assumptions C88_same_result_in_all_runs.

(** If one run ends, no run can go on forever, and every run can be completed, with the same results, if the message layer buffers. *)
Theorem C88_ends_once_ends_always_if_buffered : forall M A (P : nat -> proc M A) n s, prun (@anything) n (pstart P) s -> all_ended s ->
  exists bound, forall n' s', prun (@anything) n' (pstart P) s' -> n' <= bound /\ exists k, prun (@anything) k s' s.
Proof.
  intros M A P n s R E. destruct (prun_bruns _ _ _ _ _ _ R) as (N & _ & B). exists N. intros n' s' R'. destruct (prun_bruns _ _ _ _ _ _ R') as (k' & L & B').
  destruct (strip_runs _ _ _ _ _ _ _ B (ended_stuck _ _ _ E) B') as [L' B2]. split; [lia|]. exists (N - k'). apply bruns_prun. exact B2.
Qed.
Print Assumptions C88_ends_once_ends_always_if_buffered.

(** If it can end without any buffering, then it ends whatever the schedule and the buffering: a bounded number of steps, never
    blocked, the same result on every rank, no message left over. *)
Theorem C88_ends_unbuffered_ends_always : forall M A (P : nat -> proc M A) n s, prun no_buffering n (pstart P) s -> all_ended s ->
  forall n' s', prun (@anything) n' (pstart P) s' ->
    n' <= 2 * n /\ (~ all_ended s' -> exists s'', pstep false s' s'') /\
    (all_ended s' -> (forall p q, pc s' p q = []) /\ forall r a, ended s r a <-> ended s' r a).
Proof.
  intros M A P n s R E n' s' R'. destruct (nobuf_choreo _ _ _ _ _ R (fun _ _ => eq_refl) E) as (ch & res & NE & L & FO & EN). cbn [pp pstart] in FO.
  destruct (proc_choreography _ _ ch P res NE FO _ _ _ R') as (L' & PR & D). rewrite L in L'. split; [exact L'|]. split; [exact PR|].
  intros E'. destruct (D E') as [C G]. split; [exact C|]. intros r a. specialize (G r). specialize (EN r). unfold ended in *. split; intros H; congruence.
Qed.
Print Assumptions C88_ends_unbuffered_ends_always.

(** If one run gets stuck with rank r waiting, rank r never returns in any run. *)
Theorem C88_hangs_once_hangs_always : forall M A (P : nat -> proc M A) n s r, prun (@anything) n (pstart P) s -> (forall b s', ~ pstep b s s') ->
  (forall a, ~ ended s r a) -> forall n' s' a, prun (@anything) n' (pstart P) s' -> ~ ended s' r a.
Proof.
  intros M A P n s r R ST NE n' s' a R' E. destruct (prun_bruns _ _ _ _ _ _ R) as (k1 & _ & B). destruct (prun_bruns _ _ _ _ _ _ R') as (k2 & _ & B').
  assert (stuck M A s) as Z. { intros q. destruct (bstep M A q s) as [s0|] eqn:K; [|reflexivity]. destruct (bstep_pstep _ _ _ _ _ K) as [b PS]. destruct (ST b s0 PS). }
  destruct (strip_runs _ _ _ _ _ _ _ B Z B') as [_ B2]. apply (NE a). exact (ended_kept _ _ _ _ _ _ _ B2 E).
Qed.
Print Assumptions C88_hangs_once_hangs_always.

(** Two ranks that both send first: a buffering message layer lets them end, one that does not buffer leaves them blocked; the
    results of the runs that end are the same.  Receiving first on one side ends always. *)
Definition both_send (r : nat) : proc nat nat := match r with 0 => Out 1 11 7 (Inp 1 11 Done) | 1 => Out 0 11 8 (Inp 0 11 Done) | _ => Done 0 end.
Definition one_waits (r : nat) : proc nat nat := match r with 0 => Out 1 11 7 (Inp 1 11 Done) | 1 => Inp 0 11 (fun m => Out 0 11 (m + 1) (Done m)) | _ => Done 0 end.
Theorem C88_buffering_matters : (exists n s, prun (@anything) n (pstart both_send) s /\ all_ended s /\ ended s 0 8 /\ ended s 1 7) /\
  (forall s', ~ pstep false (pstart both_send) s').
Proof.
  split.
  - assert (forall s s' s'' n b, @pstep nat nat b s s' -> prun (@anything) n s' s'' -> prun (@anything) (S n) s s'') as ST by (intros; econstructor; [exact I|eassumption|assumption]).
    exists 4. eexists. split.
    + eapply ST; [apply (@ps_buffer nat nat (pstart both_send) 0 1 11 7 (Inp 1 11 Done)); reflexivity|].
      eapply ST; [eapply (@ps_buffer nat nat _ 1 0 11 8 (Inp 0 11 Done)); reflexivity|].
      eapply ST; [eapply (@ps_receive nat nat _ 0 1 11 7 [] Done); reflexivity|].
      eapply ST; [eapply (@ps_receive nat nat _ 1 0 11 8 [] Done); reflexivity|]. apply prun_nil.
    + split; [|split; reflexivity]. intros [|[|r]]; [exists 8|exists 7|exists 0]; reflexivity.
  - intros s' H. inversion H as [s p q g m kp kq N E1 E2 E3 E4 E5|s p q g m c kq E1 E2 E3 E4|]; subst; [|discriminate].
    cbn in E2. destruct q as [|[|q]]; [discriminate|discriminate|discriminate].
Qed.
Print Assumptions C88_buffering_matters.
Example C88_case : exists s, prun no_buffering 2 (pstart one_waits) s /\ all_ended s /\ ended s 0 8 /\ ended s 1 7.
Proof.
  eexists. split.
  - eapply prun_cons; [reflexivity|apply (@ps_rendezvous nat nat (pstart one_waits) 0 1 11 7 (Inp 1 11 Done) (fun m => Out 0 11 (m + 1) (Done m))); [lia|reflexivity..]|].
    eapply prun_cons; [reflexivity|eapply (@ps_rendezvous nat nat _ 1 0 11 8 (Done 7) Done); [lia|reflexivity..]|]. apply prun_nil.
  - split; [|split; reflexivity]. intros [|[|r]]; [exists 8|exists 7|exists 0]; reflexivity.
Qed.

(** The tags of a message and of its receive must agree: a receive under another tag than the sender used never completes, even if everything is
    buffered; and two messages under different tags may be taken in either order. *)
Definition other_tag (r : nat) : proc nat nat := match r with 0 => Out 1 11 7 (Done 0) | 1 => Inp 0 12 Done | _ => Done 0 end.
Definition crossed (r : nat) : proc nat nat := match r with 0 => Out 1 12 7 (Out 1 13 8 (Done 0)) | 1 => Inp 0 13 (fun a => Inp 0 12 (fun b => Done (a + 10 * b))) | _ => Done 0 end.
Theorem C88_tags_matter : (forall n s a, prun (@anything) n (pstart other_tag) s -> ~ ended s 1 a) /\
  (exists n s, prun (@anything) n (pstart crossed) s /\ all_ended s /\ ended s 1 78) /\ (forall s', ~ pstep false (pstart crossed) s').
Proof.
  split; [|split].
  - intros n s a R. assert (pp s 1 = Inp 0 12 Done /\ (forall m, ~ In (12, m) (pc s 0 1)) /\ (pp s 0 = Out 1 11 7 (Done 0) \/ pp s 0 = Done 0) /\ forall r, 2 <= r -> pp s r = Done 0) as (E & _); [|unfold ended; rewrite E; discriminate].
    assert (forall n s s', @prun nat nat (@anything) n s s' -> (pp s 1 = Inp 0 12 Done /\ (forall m, ~ In (12, m) (pc s 0 1)) /\ (pp s 0 = Out 1 11 7 (Done 0) \/ pp s 0 = Done 0) /\ forall r, 2 <= r -> pp s r = Done 0) ->
      (pp s' 1 = Inp 0 12 Done /\ (forall m, ~ In (12, m) (pc s' 0 1)) /\ (pp s' 0 = Out 1 11 7 (Done 0) \/ pp s' 0 = Done 0) /\ forall r, 2 <= r -> pp s' r = Done 0)) as G.
    { clear. intros n s s' R. induction R as [s|n b s s1 s2 _ ST R IH]; intros H; [exact H|]. apply IH. clear R IH. destruct H as (H1 & H2 & H0 & HR).
      assert (forall r q g m k, pp s r = Out q g m k -> r = 0 /\ q = 1 /\ g = 11 /\ m = 7 /\ k = Done 0) as OUT.
      { intros [|[|r]] q g m k E; [destruct H0 as [H0|H0]; rewrite H0 in E; [injection E as <- <- <- <-; auto|discriminate]|congruence|rewrite HR in E by lia; discriminate]. }
      assert (forall r q g k, pp s r = Inp q g k -> r = 1 /\ q = 0 /\ g = 12) as INP.
      { intros [|[|r]] q g k E; [destruct H0 as [H0|H0]; rewrite H0 in E; discriminate|rewrite H1 in E; injection E as <- <- _; auto|rewrite HR in E by lia; discriminate]. }
      destruct ST as [s p q g m kp kq N Ep Eq Ec | s p q g m c kq Eq Ec | s p q g m kp Ep].
      - apply OUT in Ep. apply INP in Eq. lia.
      - apply INP in Eq. destruct Eq as (-> & -> & ->). exfalso. clear - H2 Ec. revert c Ec H2. generalize (pc s 0 1). induction l as [|[t x] l IH]; intros c Ec H2; [discriminate|].
        cbn in Ec. destruct (Nat.eqb_spec t 12) as [-> |]; [apply (H2 x); left; reflexivity|]. destruct (take 12 l) as [[y z]|]; [|discriminate]. injection Ec as -> _.
        apply (IH z eq_refl). intros w Hw. apply (H2 w). right. exact Hw.
      - apply OUT in Ep. destruct Ep as (-> & -> & -> & -> & ->). cbn [pp pc]. unfold upd, upd2. cbn [Nat.eqb andb]. split; [exact H1|]. split; [|split; [auto|]].
        + intros m Hm. apply in_app_iff in Hm. destruct Hm as [Hm|[Hm|[]]]; [exact (H2 m Hm)|discriminate].
        + intros r L. destruct r; [lia|]. apply HR, L. }
    apply (G _ _ _ R). cbn. split; [reflexivity|]. split; [auto|]. split; [auto|]. intros [|[|r]] L; [lia|lia|reflexivity].
  - assert (forall s s' s'' n b, @pstep nat nat b s s' -> prun (@anything) n s' s'' -> prun (@anything) (S n) s s'') as ST by (intros; econstructor; [exact I|eassumption|assumption]).
    exists 4. eexists. split.
    + eapply ST; [apply (@ps_buffer nat nat (pstart crossed) 0 1 12 7 (Out 1 13 8 (Done 0))); reflexivity|].
      eapply ST; [eapply (@ps_buffer nat nat _ 0 1 13 8 (Done 0)); reflexivity|].
      eapply ST; [eapply (@ps_receive nat nat _ 0 1 13 8 [(12, 7)]); reflexivity|].
      eapply ST; [eapply (@ps_receive nat nat _ 0 1 12 7 []); reflexivity|]. apply prun_nil.
    + split; [|reflexivity]. intros [|[|r]]; [exists 0|exists 78|exists 0]; reflexivity.
  - intros s' H. inversion H as [s p q g m kp kq N E1 E2 E3 E4 E5|s p q g m c kq E1 E2 E3 E4|]; subst; [|discriminate].
    cbn in E1, E2. destruct q as [|[|q]]; [discriminate| |discriminate]. destruct p as [|[|p]]; [|discriminate|discriminate]. injection E1 as <- _ _. discriminate.
Qed.
Print Assumptions C88_tags_matter.
