(** C113: processes that are killed. *)
From Coq Require Import Reals List Arith Bool ZArith Lia Lra Permutation.
From Verif Require Import Model.Base Model.MPI Model.Process Model.Crash Model.SDF Model.Mesh Model.Forces Model.InitGrid Model.Interp Model.Blocker
  Model.Simplex Model.Migration Model.WhereTo Model.Generator Model.Parallel Spec.Lockstep Spec.MeshTopo Spec.Bars Proofs.Choreo Proofs.ListAux Proofs.ProcessProofs
  Proofs.CrashProofs Proofs.GenLoop Props.P24_schedules Props.P25_parallel.
Import ListNotations.
Local Open Scope nat_scope.

(** Whatever processes are killed, whenever, and whichever of their last messages get lost: a process that returns returns what it returns in every run
    without losses in which it returns, and such a run exists. *)
Theorem C113_same_as_without : forall M A (P : nat -> proc M A) c r a, crun (cstart P) c -> ended (net_of c) r a ->
  (exists n s, prun (@anything) n (pstart P) s /\ ended s r a) /\
  (forall n s b, prun (@anything) n (pstart P) s -> ended s r b -> b = a).
Proof.
  intros M A P c r a R E. destruct (crash_free M A P c R) as (n & s & R' & EP). assert (E' : ended s r a) by (unfold ended; rewrite EP; exact E).
  split; [exists n, s; split; assumption|]. intros n2 s2 b R2 E2. exact (C88_same_result_in_all_runs _ _ _ _ _ _ _ _ _ _ R2 R' E2 E').
Qed.
Print Assumptions C113_same_as_without.

(** A mesh that is returned although processes were killed is as good as any. *)
Theorem C113_cells_inside : forall Q size axis d s o fuel c r p t, good_backend (q_serial Q 0) ->
  crun (cstart (parallel_mesh Q size axis d s o fuel)) c -> ended (net_of c) r (Some (Ok (Some (p, t)))) -> r = 0 /\ good_mesh d s o p t.
Proof.
  intros Q size axis d s o fuel c r p t GB R E. destruct (C113_same_as_without _ _ _ _ _ _ R E) as ((n & st & R' & E') & _). exact (C89_cells_inside Q size axis d s o fuel n st r p t GB R' E').
Qed.
Print Assumptions C113_cells_inside.

(** ---- the last thing a rank other than 0 does is to send to rank 0 ---- *)
Notation away := (Some (Ok None) : out).
Lemma closing_finish Q size P r p t : 0 < r -> par_finish Q size P r p t <> Done away /\ closing _ _ away (par_finish Q size P r p t).
Proof.
  intros R. unfold par_finish. destruct (run_fix _ _ _) as [mesh|e]; [|split; [discriminate|exact I]]. unfold aggregate_p.
  assert ((r =? 0) = false) as -> by (apply Nat.eqb_neq; lia). cbn [pbind closing]. split; [discriminate|]. repeat (split; [intros; reflexivity|]). exact I.
Qed.
Lemma closing_loop Q size P ext r fuel : 0 < r -> forall c p, par_loop Q size P ext r fuel c p <> Done away /\ closing _ _ away (par_loop Q size P ext r fuel c p).
Proof.
  intros R. induction fuel as [|fuel IH]; intros c p; [split; [discriminate|exact I]|]. cbn [par_loop]. destruct (table _ _ _ _ _ _ _) as [ex|]; [|split; [discriminate|exact I]].
  apply closing_bind. intros recv. destruct (with_ghosts _ _ _ _ _ _ _) as [p3 t4]. destruct (Reqb _ _); [apply closing_finish, R|]. cbv zeta.
  assert ((r =? 0) = false) as -> by (apply Nat.eqb_neq; lia). apply IH.
Qed.
Lemma closing_rank Q size axis d s o fuel r : 0 < r -> parallel_mesh Q size axis d s o fuel r <> Done away /\ closing _ _ away (parallel_mesh Q size axis d s o fuel r).
Proof.
  intros R. unfold parallel_mesh. destruct (r <? size); [|split; [discriminate|exact I]]. unfold par_rank. destruct (meshed_fd d s) as [fd|]; [|split; [discriminate|exact I]].
  destruct (the_h0 s o) as [h0|]; [|split; [discriminate|exact I]]. destruct (Rltb h0 0); [split; [discriminate|exact I]|]. destruct (negb _); [split; [discriminate|exact I]|].
  apply closing_bind. intros [[[fh p] ext]|e]; [|split; [discriminate|exact I]]. destruct (Rltb _ 0); [split; [discriminate|exact I]|]. destruct p as [|x p]; [split; [discriminate|exact I]|].
  apply closing_loop, R.
Qed.

(** Where a call that nobody disturbs ends (the hypotheses of C89_run), rank 0 returns only if the calls of all other ranks have returned, without a mesh, and
    what it returns is what it returns undisturbed. *)
Theorem C113_needs_everyone : forall Q size axis d s o fuel K fd h0 fh p ext m, 2 <= size -> accepted d s o fd h0 K ->
  ranks_start Q size axis d s o fd h0 fh p ext -> K <= fuel ->
  let P := on_rank d s o fd h0 fh in let points j := after Q size P ext j p in
  (forall j, j < K -> all_export Q size P ext j (points j) \/ all_idle Q size P ext j (points j)) ->
  (forall j, S j < K -> rank0_goes_on Q size P ext j (points j)) ->
  (forall r, r < size -> let l := local_mesh Q size P ext (K - 1) (points (K - 1)) r in run_fix (q_serial Q r) (fst l) (snd l) = Ok (m r)) ->
  forall c a, crun (cstart (parallel_mesh Q size axis d s o fuel)) c -> ended (net_of c) 0 a ->
    a = Some (match finish (q_serial Q 0) (P 0) (fst (Lockstep.joined size m)) (snd (Lockstep.joined size m)) with Ok x => Ok (Some x) | Err e => Err e end) /\
    forall r, 0 < r < size -> ended (net_of c) r (Some (Ok None)).
Proof.
  intros Q size axis d s o fuel K fd h0 fh p ext m S2 AC ST LF P points HE HG HF c a R E.
  pose proof (C89_run Q size axis d s o fuel K fd h0 fh p ext m S2 AC ST LF HE HG HF) as RUN. cbv zeta in RUN. fold P in RUN.
  destruct (crash_free _ _ _ _ R) as (n & st & R' & EP).
  destruct (completes _ _ (parallel_mesh Q size axis d s o fuel) (2 * ((2 * K + size + 7) * (size - 1)))
              (fun n s H => conj (proj1 (RUN n s H)) (proj1 (proj2 (RUN n s H)))) n st R') as (k & st' & R2 & AE).
  assert (R3 : prun (@anything) (n + k) (pstart (parallel_mesh Q size axis d s o fuel)) st').
  { eapply prun_app; [exact R'|]. clear - R2. induction R2 as [s|n b s s1 s2 O Z R IH]; [constructor|eapply prun_cons; [exact Logic.I|exact Z|exact IH]]. }
  destruct (proj2 (proj2 (RUN _ _ R3)) AE) as (_ & F0 & FR).
  destruct (prun_bruns _ _ _ _ _ _ R2) as (kk & _ & B).
  assert (E0 : ended st 0 a) by (unfold ended; rewrite EP; exact E).
  split.
  - pose proof (ended_kept _ _ _ _ _ _ _ B E0) as X. unfold ended in X, F0. rewrite X in F0. injection F0 as F0. exact F0.
  - intros r L. specialize (FR r L). unfold ended. rewrite <- EP. destruct (pp st r) as [x|q t mm kq|q t kq] eqn:PR.
    + pose proof (ended_kept _ _ _ _ _ r x B PR) as X. unfold ended in X, FR. congruence.
    + exfalso. refine (never_last _ _ away k st st' r a R2 (closing_run _ _ away _ _ _ _ R' (fun q Hq => proj2 (closing_rank Q size axis d s o fuel q Hq))) E0 (proj1 L) _ FR). rewrite PR. exact Logic.I.
    + exfalso. refine (never_last _ _ away k st st' r a R2 (closing_run _ _ away _ _ _ _ R' (fun q Hq => proj2 (closing_rank Q size axis d s o fuel q Hq))) E0 (proj1 L) _ FR). rewrite PR. exact Logic.I.
Qed.
Print Assumptions C113_needs_everyone.

(** So if one of them is killed inside its call, rank 0 never returns. *)
Lemma dead_still M A (c c' : cnet M A) r : crun c c' -> dead c r = true -> pp (net_of c') r = pp (net_of c) r /\ dead c' r = true.
Proof.
  intros R. induction R as [c|c c1 c2 ST R IH]; intros D; [auto|].
  assert (G : pp (net_of c1) r = pp (net_of c) r /\ dead c1 r = true).
  { destruct ST as [s dd p q t m kp kq Dp Dq NE E1 E2 E3|s dd p q t m x kq Dq E1 E2|s dd p q t m kp Dp E1|s dd p kept K]; cbn [net_of dead pp] in *.
    - split; [|exact D]. unfold upd. destruct (Nat.eqb_spec r q); [congruence|]. destruct (Nat.eqb_spec r p); [congruence|reflexivity].
    - split; [|exact D]. unfold upd. destruct (Nat.eqb_spec r q); [congruence|reflexivity].
    - split; [|exact D]. unfold upd. destruct (Nat.eqb_spec r p); [congruence|reflexivity].
    - split; [reflexivity|]. unfold upd. destruct (Nat.eqb_spec r p); [reflexivity|exact D]. }
  destruct G as (G1 & G2). destruct (IH G2) as (I1 & I2). split; [congruence|exact I2].
Qed.
Theorem C113_killed_inside : forall Q size axis d s o fuel K fd h0 fh p ext m, 2 <= size -> accepted d s o fd h0 K ->
  ranks_start Q size axis d s o fd h0 fh p ext -> K <= fuel ->
  let P := on_rank d s o fd h0 fh in let points j := after Q size P ext j p in
  (forall j, j < K -> all_export Q size P ext j (points j) \/ all_idle Q size P ext j (points j)) ->
  (forall j, S j < K -> rank0_goes_on Q size P ext j (points j)) ->
  (forall r, r < size -> let l := local_mesh Q size P ext (K - 1) (points (K - 1)) r in run_fix (q_serial Q r) (fst l) (snd l) = Ok (m r)) ->
  forall c r, crun (cstart (parallel_mesh Q size axis d s o fuel)) c -> 0 < r < size -> dead c r = true -> (forall a, ~ ended (net_of c) r a) ->
    forall c' a, crun c c' -> ~ ended (net_of c') 0 a.
Proof.
  intros Q size axis d s o fuel K fd h0 fh p ext m S2 AC ST LF P points HE HG HF c r R L D NE c' a R' E.
  assert (R2 : crun (cstart (parallel_mesh Q size axis d s o fuel)) c').
  { clear - R R'. induction R as [c|c c1 c2 Z R IH]; [exact R'|]. eapply crun_cons; [exact Z|]. apply IH, R'. }
  destruct (C113_needs_everyone Q size axis d s o fuel K fd h0 fh p ext m S2 AC ST LF HE HG HF c' a R2 E) as (_ & H). specialize (H r L).
  destruct (dead_still _ _ _ _ r R' D) as (X & _). unfold ended in H. rewrite X in H. exact (NE _ H).
Qed.
Print Assumptions C113_killed_inside.

(** ---- cases ---- *)
(** two processes; process 1 answers and is killed while the answer is under way: it may arrive (process 0 returns 8, as in every undisturbed run, C88_case) or be lost
    (process 0 waits for ever) *)
Definition answered : cnet nat nat := CNet (PNet (upd (upd one_waits 0 (Inp 1 11 Done)) 1 (Done 7)) (upd2 (fun _ _ => []) 1 0 [(11, 8)])) (fun _ => false).
Lemma answers : crun (cstart one_waits) answered.
Proof.
  eapply crun_cons; [apply (@cs_rendezvous nat nat (pstart one_waits) (fun _ => false) 0 1 11 7 (Inp 1 11 Done) (fun m => Out 0 11 (m + 1) (Done m))); [reflexivity|reflexivity|lia|reflexivity..]|].
  eapply crun_cons; [eapply (@cs_buffer nat nat _ (fun _ => false) 1 0 11 8 (Done 7)); reflexivity|].
  cbn [pp pc pstart]. match goal with |- crun ?a _ => assert (a = answered) as -> end; [|apply crun_nil]. unfold answered. f_equal. f_equal.
  apply FunctionalExtensionality.functional_extensionality. intros [|[|r]]; reflexivity.
Qed.
Example C113_small_case :
  (exists c, crun (cstart one_waits) c /\ dead c 1 = true /\ ended (net_of c) 0 8) /\
  (exists c, crun (cstart one_waits) c /\ dead c 1 = true /\ (forall c' a, crun c c' -> ~ ended (net_of c') 0 a)).
Proof.
  split.
  - eexists. split; [|split].
    + assert (APP : forall a b c : cnet nat nat, crun a b -> crun b c -> crun a c) by (intros a b c R; induction R; [auto|]; intros; eapply crun_cons; eauto).
      eapply APP; [exact answers|].
      eapply crun_cons; [apply (@cs_crash nat nat _ _ 1 (fun q => if q =? 0 then [(11, 8)] else [])); intros [|q]; exists []; reflexivity|].
      eapply crun_cons; [eapply (@cs_receive nat nat _ _ 1 0 11 8 [] Done); reflexivity|]. apply crun_nil.
    + reflexivity.
    + reflexivity.
  - assert (APP : forall a b c : cnet nat nat, crun a b -> crun b c -> crun a c) by (intros a b c R; induction R; [auto|]; intros; eapply crun_cons; eauto).
    eexists. split; [|split].
    + eapply APP; [exact answers|].
      eapply crun_cons; [apply (@cs_crash nat nat _ _ 1 (fun _ => [])); intros q; eexists; reflexivity|]. apply crun_nil.
    + reflexivity.
    + cbn [net_of pp pc answered].
      assert (G : forall c c' : cnet nat nat, crun c c' -> pp (net_of c) 0 = Inp 1 11 Done -> dead c 1 = true -> pc (net_of c) 1 0 = [] ->
        pp (net_of c') 0 = Inp 1 11 Done).
      { intros c c' R. induction R as [c|c c1 c2 ST R IH]; intros H1 H2 H3; [exact H1|].
        destruct ST as [s dd p q t m kp kq Dp Dq NE E1 E2 E3|s dd p q t m x kq Dq E1 E2|s dd p q t m kp Dp E1|s dd p kept KK]; cbn [net_of dead pp pc] in *; apply IH; cbn [net_of dead pp pc].
        - unfold upd. destruct (Nat.eqb_spec 0 q) as [<- |]; [rewrite H1 in E2; injection E2 as <- _ _; congruence|]. destruct (Nat.eqb_spec 0 p) as [<- |]; [congruence|exact H1].
        - exact H2.
        - exact H3.
        - unfold upd. destruct (Nat.eqb_spec 0 q) as [<- |]; [rewrite H1 in E1; injection E1 as <- <- _; rewrite H3 in E2; discriminate|exact H1].
        - exact H2.
        - unfold upd2. destruct (Nat.eqb_spec 1 p) as [<- |]; [|exact H3]. destruct (Nat.eqb_spec 0 q) as [<- |]; [rewrite H3 in E2; discriminate|exact H3].
        - unfold upd. destruct (Nat.eqb_spec 0 p) as [<- |]; [congruence|exact H1].
        - exact H2.
        - unfold upd2. destruct (Nat.eqb_spec 1 p) as [<- |]; [congruence|exact H3].
        - exact H1.
        - unfold upd. destruct (1 =? p); [reflexivity|exact H2].
        - destruct (Nat.eqb_spec 1 p) as [<- |]; [|exact H3]. destruct (KK 0) as (lost & EL). rewrite H3 in EL. destruct (kept 0); [reflexivity|discriminate]. }
      intros c' a R E. pose proof (G _ _ R eq_refl eq_refl eq_refl) as X. unfold ended in E. rewrite X in E. discriminate.
Qed.
Local Open Scope R_scope.
(** the run of C89_case: process 0 of two returns only if process 1 has *)
Example C113_case : exists res, forall c a, crun (cstart (parallel_mesh Q2 2 0 dom2 siz2 opt2 2)) c -> ended (net_of c) 0 a -> a = Some res /\ ended (net_of c) 1 (Some (Ok None)).
Proof.
  eexists. intros c a R E.
  destruct (C113_needs_everyone Q2 2 0 dom2 siz2 opt2 2 2 (fun _ => -1) 1 (fun _ _ => 1) own ext2 final2 ltac:(lia)) with (c := c) (a := a) as (A & B); try eassumption.
  - split; [reflexivity|]. split; [reflexivity|]. split; [lra|]. split; [left; reflexivity|]. split; [cbn; lra|lia].
  - exact starts2.
  - lia.
  - intros j _. left. apply export2.
  - intros j _. apply go_on2.
  - intros r L. apply clean2, L.
  - split; [exact A|]. apply B. lia.
Qed.
