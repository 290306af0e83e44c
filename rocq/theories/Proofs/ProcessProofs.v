(** Runs of data-dependent programs: confluence, and programs that can finish without buffering. *)
From Coq Require Import List Arith Bool Lia FunctionalExtensionality.
From Verif Require Import Model.MPI Model.Process Proofs.Choreo.
Import ListNotations.

Section P.
Variables M A : Type.
Notation proc := (proc M A).
Notation pnet := (pnet M A).

(** ---- fully buffered steps, labelled by the acting rank ---- *)
Definition bstep (r : nat) (s : pnet) : option pnet :=
  match pp s r with
  | Done _ => None
  | Out q t m k => Some (PNet (upd (pp s) r k) (upd2 (pc s) r q (pc s r q ++ [(t, m)])))
  | Inp p t k => match take t (pc s p r) with None => None | Some (m, c) => Some (PNet (upd (pp s) r (k m)) (upd2 (pc s) p r c)) end
  end.
Lemma upd_comm {X} (f : nat -> X) i j x y : i <> j -> upd (upd f i x) j y = upd (upd f j y) i x.
Proof.
  intros N. apply functional_extensionality. intros k. unfold upd. destruct (Nat.eqb_spec k j), (Nat.eqb_spec k i); try reflexivity. congruence.
Qed.
Lemma upd2_comm {X} (f : nat -> nat -> X) i j i' j' x y : ~ (i = i' /\ j = j') -> upd2 (upd2 f i j x) i' j' y = upd2 (upd2 f i' j' y) i j x.
Proof.
  intros N. apply functional_extensionality. intros k. apply functional_extensionality. intros l. unfold upd2.
  destruct (Nat.eqb_spec k i'), (Nat.eqb_spec l j'), (Nat.eqb_spec k i), (Nat.eqb_spec l j); cbn; try reflexivity. exfalso. apply N. split; congruence.
Qed.
Lemma upd2_twice {X} (f : nat -> nat -> X) i j x y : upd2 (upd2 f i j x) i j y = upd2 f i j y.
Proof. apply functional_extensionality. intros k. apply functional_extensionality. intros l. unfold upd2. destruct ((k =? i) && (l =? j)); reflexivity. Qed.
Lemma upd2_same {X} (f : nat -> nat -> X) i j x : upd2 f i j x i j = x.
Proof. unfold upd2. rewrite !Nat.eqb_refl. reflexivity. Qed.
Lemma upd2_other {X} (f : nat -> nat -> X) i j i' j' x : ~ (i' = i /\ j' = j) -> upd2 f i j x i' j' = f i' j'.
Proof. intros N. unfold upd2. destruct (Nat.eqb_spec i' i), (Nat.eqb_spec j' j); cbn; try reflexivity. exfalso. auto. Qed.
Lemma upd_other {X} (f : nat -> X) i j x : j <> i -> upd f i x j = f j.
Proof. intros N. unfold upd. apply Nat.eqb_neq in N. rewrite N. reflexivity. Qed.
Lemma upd_same {X} (f : nat -> X) i x : upd f i x i = x.
Proof. unfold upd. rewrite Nat.eqb_refl. reflexivity. Qed.
Lemma upd2_id {X} (f : nat -> nat -> X) i j : upd2 f i j (f i j) = f.
Proof. apply functional_extensionality. intros k. apply functional_extensionality. intros l. unfold upd2. destruct (Nat.eqb_spec k i), (Nat.eqb_spec l j); cbn; congruence. Qed.

Lemma take_snoc t (l : list (nat * M)) m c x : take t l = Some (m, c) -> take t (l ++ [x]) = Some (m, c ++ [x]).
Proof.
  revert m c. induction l as [|[t' m'] l IH]; cbn; intros m c H; [discriminate|]. destruct (t' =? t); [injection H as <- <-; reflexivity|].
  destruct (take t l) as [[a b]|]; [|discriminate]. injection H as <- <-. rewrite (IH _ _ eq_refl). reflexivity.
Qed.
Lemma take_last t (l : list (nat * M)) m : take t l = None -> take t (l ++ [(t, m)]) = Some (m, l).
Proof.
  induction l as [|[t' m'] l IH]; cbn; intros H; [rewrite Nat.eqb_refl; reflexivity|]. destruct (t' =? t); [discriminate|]. destruct (take t l) as [[a b]|]; [discriminate|].
  rewrite (IH eq_refl). reflexivity.
Qed.
Lemma diamond r r' s s1 s2 : r <> r' -> bstep r s = Some s1 -> bstep r' s = Some s2 -> exists s3, bstep r' s1 = Some s3 /\ bstep r s2 = Some s3.
Proof.
  intros N E1 E2. unfold bstep in E1, E2.
  destruct (pp s r) as [a|q t m k|p t k] eqn:P1; [discriminate| |destruct (take t (pc s p r)) as [[m c]|] eqn:C1; [|discriminate]];
  (destruct (pp s r') as [a'|q' t' m' k'|p' t' k'] eqn:P2; [discriminate| |destruct (take t' (pc s p' r')) as [[m' c']|] eqn:C2; [|discriminate]]);
  injection E1 as <-; injection E2 as <-; unfold bstep; cbn [pp pc];
  rewrite (upd_other (pp s) r r') by congruence; rewrite (upd_other (pp s) r' r) by congruence; rewrite P1, P2.
  - (* send, send *) eexists. split; [reflexivity|]. f_equal. rewrite (upd_comm _ r r') by congruence. f_equal.
    rewrite !(upd2_other (pc s)) by (intros [? ?]; congruence). symmetry. apply upd2_comm. intros [? ?]; congruence.
  - (* send, recv *) destruct (Nat.eq_dec p' r) as [-> |Np]; [destruct (Nat.eq_dec q r') as [-> |Nq]|].
    + rewrite !upd2_same, (take_snoc _ _ _ _ _ C2). eexists. split; [reflexivity|]. f_equal. rewrite (upd_comm _ r r') by congruence. f_equal. rewrite !upd2_twice. reflexivity.
    + rewrite (upd2_other (pc s) r q) by (intros [? ?]; congruence). rewrite C2. eexists. split; [reflexivity|]. f_equal. rewrite (upd_comm _ r r') by congruence. f_equal.
      rewrite !(upd2_other (pc s)) by (intros [? ?]; congruence). symmetry. apply upd2_comm. intros [? ?]; congruence.
    + rewrite (upd2_other (pc s) r q) by (intros [? ?]; congruence). rewrite C2. eexists. split; [reflexivity|]. f_equal. rewrite (upd_comm _ r r') by congruence. f_equal.
      rewrite !(upd2_other (pc s)) by (intros [? ?]; congruence). symmetry. apply upd2_comm. intros [? ?]; congruence.
  - (* recv, send *) destruct (Nat.eq_dec p r') as [-> |Np]; [destruct (Nat.eq_dec q' r) as [-> |Nq]|].
    + rewrite !upd2_same, (take_snoc _ _ _ _ _ C1). eexists. split; [reflexivity|]. f_equal. rewrite (upd_comm _ r r') by congruence. f_equal. rewrite !upd2_twice. reflexivity.
    + rewrite (upd2_other (pc s) r' q') by (intros [? ?]; congruence). rewrite C1. eexists. split; [reflexivity|]. f_equal. rewrite (upd_comm _ r r') by congruence. f_equal.
      rewrite !(upd2_other (pc s)) by (intros [? ?]; congruence). symmetry. apply upd2_comm. intros [? ?]; congruence.
    + rewrite (upd2_other (pc s) r' q') by (intros [? ?]; congruence). rewrite C1. eexists. split; [reflexivity|]. f_equal. rewrite (upd_comm _ r r') by congruence. f_equal.
      rewrite !(upd2_other (pc s)) by (intros [? ?]; congruence). symmetry. apply upd2_comm. intros [? ?]; congruence.
  - (* recv, recv *) rewrite !(upd2_other (pc s)) by (intros [? ?]; congruence). rewrite C1, C2. eexists. split; [reflexivity|]. f_equal. rewrite (upd_comm _ r r') by congruence. f_equal.
    symmetry. apply upd2_comm. intros [? ?]; congruence.
Qed.
Inductive bruns : nat -> pnet -> pnet -> Prop :=
| br_nil s : bruns 0 s s
| br_cons n r s s' s'' : bstep r s = Some s' -> bruns n s' s'' -> bruns (S n) s s''.
Lemma bruns_app n m s s' s'' : bruns n s s' -> bruns m s' s'' -> bruns (n + m) s s''.
Proof. intros H. induction H as [|n r s s1 s2 E H IH]; intros K; [exact K|]. cbn. econstructor; [exact E|]. apply IH, K. Qed.
Definition stuck (s : pnet) : Prop := forall r, bstep r s = None.
(** one step towards anywhere keeps the way to a state without successors *)
Lemma strip n s z : bruns n s z -> stuck z -> forall r s1, bstep r s = Some s1 -> exists k, n = S k /\ bruns k s1 z.
Proof.
  intros H Z. induction H as [s|n r0 s s0 z E H IH]; intros r s1 E1; [rewrite (Z r) in E1; discriminate|].
  exists n. split; [reflexivity|]. destruct (Nat.eq_dec r r0) as [-> |N]; [rewrite E in E1; injection E1 as <-; exact H|].
  destruct (diamond r r0 s s1 s0 N E1 E) as (s3 & D1 & D2). destruct (IH Z r s3 D2) as (k & -> & K). econstructor; [exact D1|exact K].
Qed.
Lemma strip_runs n s z m s1 : bruns n s z -> stuck z -> bruns m s s1 -> m <= n /\ bruns (n - m) s1 z.
Proof.
  intros H Z K. revert n H. induction K as [s|m r s s' s1 E K IH]; intros n H; [rewrite Nat.sub_0_r; split; [lia|exact H]|].
  destruct (strip n s z H Z r s' E) as (k & -> & H'). destruct (IH k H') as [L G]. split; [lia|]. exact G.
Qed.
(** confluence *)
Lemma semi n s s1 r s2 : bruns n s s1 -> bstep r s = Some s2 -> exists k s3, bruns k s2 s3 /\ (s1 = s3 \/ bstep r s1 = Some s3).
Proof.
  intros H. revert s2. induction H as [s|n r0 s s0 s1 E H IH]; intros s2 E2; [exists 0, s2; split; [constructor|right; exact E2]|].
  destruct (Nat.eq_dec r r0) as [-> |N]; [rewrite E in E2; injection E2 as <-; exists n, s1; split; [exact H|left; reflexivity]|].
  destruct (diamond r r0 s s2 s0 N E2 E) as (s3 & D1 & D2). destruct (IH s3 D2) as (k & s4 & K & J). exists (S k), s4. split; [econstructor; [exact D1|exact K]|exact J].
Qed.
Lemma confluent m s s2 : bruns m s s2 -> forall n s1, bruns n s s1 -> exists a b s3, bruns a s1 s3 /\ bruns b s2 s3.
Proof.
  intros H. induction H as [s|m r s s' s2 E H IH]; intros n s1 K; [exists 0, n, s1; split; [constructor|exact K]|].
  destruct (semi _ _ _ _ _ K E) as (k & s4 & K4 & J). destruct (IH k s4 K4) as (a & b & s3 & A1 & B1).
  destruct J as [<- |J]; [exists a, b, s3; split; assumption|]. exists (S a), b, s3. split; [econstructor; [exact J|exact A1]|exact B1].
Qed.
Lemma ended_kept n s s' r a : bruns n s s' -> ended s r a -> ended s' r a.
Proof.
  intros H E. induction H as [s|n r0 s s0 s' E0 H IH]; [exact E|]. apply IH. unfold ended in *. destruct (Nat.eq_dec r r0) as [-> |N].
  - unfold bstep in E0. rewrite E in E0. discriminate.
  - unfold bstep in E0. destruct (pp s r0) as [?|q t m k|p t k]; [discriminate| |destruct (take t (pc s p r0)) as [[m c]|]; [|discriminate]]; injection E0 as <-; cbn [pp]; rewrite upd_other by congruence; exact E.
Qed.
Lemma ended_stuck s : all_ended s -> stuck s.
Proof. intros H r. unfold bstep. destruct (H r) as [a E]. unfold ended in E. rewrite E. reflexivity. Qed.
Lemma pstep_bruns b s s' : pstep b s s' -> exists k, 0 < k /\ bruns k s s'.
Proof.
  intros H. destruct H as [s p q t m kp kq N Ep Eq C | s p q t m c kq Eq C | s p q t m kp Ep].
  - exists 2. split; [lia|]. apply (br_cons 1 p s (PNet (upd (pp s) p kp) (upd2 (pc s) p q (pc s p q ++ [(t, m)])))); [unfold bstep; rewrite Ep; reflexivity|].
    eapply (br_cons 0 q); [|constructor]. unfold bstep. cbn [pp pc]. rewrite upd_other by congruence. rewrite Eq, upd2_same, (take_last _ _ _ C), upd2_twice, upd2_id. reflexivity.
  - exists 1. split; [lia|]. eapply (br_cons 0 q); [|constructor]. unfold bstep. rewrite Eq, C. reflexivity.
  - exists 1. split; [lia|]. eapply (br_cons 0 p); [|constructor]. unfold bstep. rewrite Ep. reflexivity.
Qed.
Lemma prun_bruns ok n s s' : prun ok n s s' -> exists k, n <= k /\ bruns k s s'.
Proof.
  intros H. induction H as [s|n b s s' s'' OK ST H IH]; [exists 0; split; [lia|constructor]|].
  destruct (pstep_bruns _ _ _ ST) as (k1 & L1 & B1). destruct IH as (k2 & L2 & B2). exists (k1 + k2). split; [lia|]. exact (bruns_app _ _ _ _ _ B1 B2).
Qed.
Lemma bstep_pstep r s s' : bstep r s = Some s' -> exists b, pstep b s s'.
Proof.
  unfold bstep. destruct (pp s r) as [a|q t m k|p t k] eqn:E; [discriminate| |destruct (take t (pc s p r)) as [[m c]|] eqn:C; [|discriminate]]; intros H; injection H as <-.
  - exists true. exact (@ps_buffer M A s r q t m k E).
  - exists false. exact (@ps_receive M A s p r t m c k E C).
Qed.
Lemma bruns_prun n s s' : bruns n s s' -> prun anything n s s'.
Proof.
  intros H. induction H as [s|n r s s' s'' E H IH]; [constructor|]. destruct (bstep_pstep _ _ _ E) as [b ST]. econstructor; [exact I|exact ST|exact IH].
Qed.

(** ---- programs that follow a list of operations ---- *)
Inductive follows : proc -> list (op M) -> list (nat * M) -> A -> Prop :=
| f_done a : follows (Done a) [] [] a
| f_out d t m k ops ms a : follows k ops ms a -> follows (Out d t m k) (Send d t m :: ops) ms a
| f_inp s t m k ops ms a : follows (k m) ops ms a -> follows (Inp s t k) (Recv s t :: ops) ((s, m) :: ms) a.

Lemma del_prefix (xs : list (msg M * status)) q : pref M xs -> exists rest, flat_map (to M q) (map fst xs) = flat_map (del M q) xs ++ rest.
Proof.
  intros P. assert ((forall x, In x xs -> rem M q x = []) \/ exists l1 x l2, xs = l1 ++ x :: l2 /\ (forall y, In y l1 -> rem M q y = []) /\ rem M q x <> []) as D.
  { clear P. induction xs as [|x xs IH]; [left; intros x []|]. destruct (rem M q x) eqn:E.
    - destruct IH as [IH | (l1 & y & l2 & -> & H1 & H2)].
      + left. intros y [<- | Hy]; auto.
      + right. exists (x :: l1), y, l2. split; [reflexivity|]. split; [|exact H2]. intros z [<- | Hz]; auto.
    - right. exists [], x, xs. split; [reflexivity|]. split; [intros y []|]. congruence. }
  assert (forall y : msg M * status, rem M q y = [] -> del M q y = to M q (fst y)) as K.
  { intros [[a b g c] st]. unfold rem, part, del, to. cbn. destruct st; [| |reflexivity].
    - destruct (q =? a); [discriminate|]. destruct (q =? b); [discriminate|reflexivity].
    - destruct (q =? b); [discriminate|reflexivity]. }
  assert (forall l : list (msg M * status), (forall y, In y l -> rem M q y = []) -> flat_map (del M q) l = flat_map (to M q) (map fst l)) as KL.
  { induction l as [|y l IH]; intros H; [reflexivity|]. cbn. rewrite (K y), IH; auto; intros; apply H; [right; assumption|left; reflexivity]. }
  destruct D as [D | (l1 & x & l2 & -> & H1 & H2)].
  - exists []. rewrite app_nil_r. symmetry. apply KL, D.
  - rewrite map_app, !flat_map_app, (KL l1 H1). exists (flat_map (to M q) (map fst (x :: l2))). rewrite <- app_assoc. f_equal. cbn [flat_map].
    rewrite (fm_nil (del M q) l2) by (intros y Hy; apply full_del; exact (P q l1 x l2 eq_refl H2 y Hy)).
    assert (del M q x = []) as -> by (unfold del; destruct (snd x) eqn:E; [reflexivity|reflexivity|]; exfalso; apply H2; apply done_rem, E).
    reflexivity.
Qed.
Lemma log_prefix ch pr : (forall x, In x ch -> src M x <> dst M x) -> (forall r, pr r = project M ch r) ->
  forall n t, run n (start pr) t -> forall q, exists rest, flat_map (to M q) ch = log t q ++ rest.
Proof.
  intros NE HP n t R q. destruct (inv_run M _ _ _ _ R (inv_init M ch pr NE HP)) as [xs [(_ & P & _ & _ & HL) [E _]]].
  assert (map fst (init_items M ch) = ch) as EI by (unfold init_items; rewrite map_map; apply map_id).
  destruct (del_prefix xs q P) as [rest ER]. exists rest. rewrite HL, <- ER, E, EI. reflexivity.
Qed.

Section Sim.
Variable ch : list (msg M).
Variable P : nat -> proc.
Variable res : nat -> A.
Hypothesis NE : forall x, In x ch -> src M x <> dst M x.
Hypothesis FO : forall r, follows (P r) (project M ch r) (flat_map (to M r) ch) (res r).
Definition sim (n : nat) (s : pnet) (t : net M) : Prop :=
  run n (start (project M ch)) t /\ (forall p q, pc s p q = chan t p q) /\
  forall r, exists ms, follows (pp s r) (prog t r) ms (res r) /\ flat_map (to M r) ch = log t r ++ ms.
Lemma sim_start : sim 0 (pstart P) (start (project M ch)).
Proof. split; [constructor|]. split; [reflexivity|]. intros r. eexists. split; [apply FO|reflexivity]. Qed.
Lemma run_snoc n (s s' : net M) b s'' : run n s s' -> step b s' s'' -> run (S n) s s''.
Proof. intros R ST. induction R as [s|n b0 s s1 s2 ST0 R IH]; [econstructor; [exact ST|constructor]|]. econstructor; [exact ST0|apply IH, ST]. Qed.
Lemma next_msg n t q p m ms r' : run (S n) (start (project M ch)) t -> flat_map (to M q) ch = r' ++ ms -> log t q = r' ++ [(p, m)] ->
  exists ms', ms = (p, m) :: ms'.
Proof.
  intros R E L. destruct (log_prefix ch _ NE (fun r => eq_refl) _ t R q) as [rest ER]. rewrite L, E, <- app_assoc in ER. apply app_inv_head in ER. cbn in ER. eauto.
Qed.
Lemma sim_step n b s s' t : sim n s t -> pstep b s s' -> exists t', step b t t' /\ sim (S n) s' t'.
Proof.
  intros (R & C & F) ST. destruct ST as [s p q g m kp kq N Ep Eq Ec | s p q g m c kq Eq Ec | s p q g m kp Ep].
  - destruct (F p) as (mp & Fp & Lp). rewrite Ep in Fp. inversion Fp as [|d0 g0 m0 k0 op0 ms0 a0 Fp' E1 E2 E3 E4|]; subst.
    destruct (F q) as (mq & Fq & Lq). rewrite Eq in Fq. inversion Fq as [| |s1 g1 m1 k1 op1 ms1 a1 Fq' E5 E6 E7 E8]; subst. symmetry in E2, E6.
    assert (take g (chan t p q) = None) as Ct by (rewrite <- C; exact Ec).
    pose proof (@st_rendezvous M t p q g m op0 op1 N E2 E6 Ct) as ST'. pose proof (run_snoc _ _ _ _ _ R ST') as R'.
    assert (exists ms', (p, m1) :: ms1 = (p, m) :: ms') as [ms' EM].
    { apply (next_msg n _ q p m _ (log t q) R' Lq). cbn. rewrite upd_same. reflexivity. }
    injection EM as -> ->. eexists. split; [exact ST'|]. split; [exact R'|]. cbn [pp pc chan prog log]. split; [exact C|]. intros r.
    destruct (Nat.eq_dec r q) as [-> |Nq].
    + exists ms'. rewrite !upd_same. split; [exact Fq'|]. rewrite <- app_assoc. exact Lq.
    + rewrite !(upd_other _ q) by congruence. destruct (Nat.eq_dec r p) as [-> |Np].
      * exists mp. rewrite !upd_same. split; [exact Fp'|exact Lp].
      * rewrite !(upd_other _ p) by congruence. exact (F r).
  - destruct (F q) as (mq & Fq & Lq). rewrite Eq in Fq. inversion Fq as [| |s1 g1 m1 k1 op1 ms1 a1 Fq' E5 E6 E7 E8]; subst. symmetry in E6.
    assert (take g (chan t p q) = Some (m, c)) as Ct by (rewrite <- C; exact Ec).
    pose proof (@st_receive M t p q g m c op1 E6 Ct) as ST'. pose proof (run_snoc _ _ _ _ _ R ST') as R'.
    assert (exists ms', (p, m1) :: ms1 = (p, m) :: ms') as [ms' EM].
    { apply (next_msg n _ q p m _ (log t q) R' Lq). cbn. rewrite upd_same. reflexivity. }
    injection EM as -> ->. eexists. split; [exact ST'|]. split; [exact R'|]. cbn [pp pc chan prog log]. split.
    + intros a b. unfold upd2. destruct ((a =? p) && (b =? q)); [reflexivity|apply C].
    + intros r. destruct (Nat.eq_dec r q) as [-> |Nq].
      * exists ms'. rewrite !upd_same. split; [exact Fq'|]. rewrite <- app_assoc. exact Lq.
      * rewrite !(upd_other _ q) by congruence. exact (F r).
  - destruct (F p) as (mp & Fp & Lp). rewrite Ep in Fp. inversion Fp as [|d0 g0 m0 k0 op0 ms0 a0 Fp' E1 E2 E3 E4|]; subst. symmetry in E2.
    pose proof (@st_buffer M t p q g m op0 E2) as ST'. pose proof (run_snoc _ _ _ _ _ R ST') as R'.
    eexists. split; [exact ST'|]. split; [exact R'|]. cbn [pp pc chan prog log]. split.
    + intros a b. unfold upd2. rewrite (C p q). destruct ((a =? p) && (b =? q)); [reflexivity|apply C].
    + intros r. destruct (Nat.eq_dec r p) as [-> |Np].
      * exists mp. rewrite !upd_same. split; [exact Fp'|exact Lp].
      * rewrite !(upd_other _ p) by congruence. exact (F r).
Qed.
Lemma sim_lift n b s t t' : sim n s t -> step b t t' -> exists s', pstep b s s'.
Proof.
  intros (R & C & F) ST. destruct ST as [t p q g m rp rq N Ep Eq Ec | t p q g m c rq Eq Ec | t p q g m rp Ep].
  - destruct (F p) as (mp & Fp & Lp). rewrite Ep in Fp. inversion Fp as [|d0 g0 m0 k0 op0 ms0 a0 Fp' E1 E2 E3 E4|]; subst.
    destruct (F q) as (mq & Fq & Lq). rewrite Eq in Fq. inversion Fq as [| |s1 g1 m1 k1 op1 ms1 a1 Fq' E5 E6 E7 E8]; subst.
    eexists. refine (@ps_rendezvous M A s p q g m k0 k1 N _ _ _); [symmetry; assumption|symmetry; assumption|]. rewrite C. exact Ec.
  - destruct (F q) as (mq & Fq & Lq). rewrite Eq in Fq. inversion Fq as [| |s1 g1 m1 k1 op1 ms1 a1 Fq' E5 E6 E7 E8]; subst.
    eexists. refine (@ps_receive M A s p q g m c k1 _ _); [symmetry; assumption|]. rewrite C. exact Ec.
  - destruct (F p) as (mp & Fp & Lp). rewrite Ep in Fp. inversion Fp as [|d0 g0 m0 k0 op0 ms0 a0 Fp' E1 E2 E3 E4|]; subst.
    eexists. refine (@ps_buffer M A s p q g m k0 _). symmetry. assumption.
Qed.
Lemma sim_run ok n s : forall m s' t, prun ok n s s' -> sim m s t -> exists t', sim (m + n) s' t'.
Proof.
  intros m s' t H. revert m t. induction H as [s|n b s s1 s' OK ST H IH]; intros m t S0; [exists t; rewrite Nat.add_0_r; exact S0|].
  destruct (sim_step _ _ _ _ _ S0 ST) as (t1 & _ & S1). destruct (IH _ _ S1) as (t' & S2). exists t'. replace (m + S n) with (S m + n) by lia. exact S2.
Qed.
Lemma follows_nil p ms a : follows p [] ms a -> p = Done a.
Proof. inversion 1; reflexivity. Qed.
Theorem proc_choreography ok n s : prun ok n (pstart P) s ->
  n <= 2 * length ch /\ (~ all_ended s -> exists s', pstep false s s') /\ (all_ended s -> (forall p q, pc s p q = []) /\ forall r, ended s r (res r)).
Proof.
  intros H. destruct (sim_run ok n _ _ _ _ H sim_start) as (t & R & C & F). cbn in R.
  destruct (choreography M ch _ NE (fun r => eq_refl) n t R) as (L & PR & D). split; [exact L|].
  split.
  - intros NF. destruct (PR) as [t' ST].
    + intros FI. apply NF. intros r. exists (res r). destruct (F r) as (ms & Fr & _). rewrite (FI r) in Fr. apply follows_nil in Fr. exact Fr.
    + refine (sim_lift n false s t t' _ ST). split; [exact R|]. split; assumption.
  - intros FI. assert (finished t) as FT.
    { intros r. destruct (F r) as (ms & Fr & _). destruct (FI r) as [a Ea]. unfold ended in Ea. rewrite Ea in Fr. inversion Fr. reflexivity. }
    destruct (D FT) as [CH _]. split; [intros p q; rewrite C; apply CH|]. intros r. destruct (F r) as (ms & Fr & _). rewrite (FT r) in Fr. apply follows_nil in Fr. exact Fr.
Qed.
Lemma prun_snoc ok n (s s' s'' : pnet) b : prun ok n s s' -> ok b -> pstep b s' s'' -> prun ok (S n) s s''.
Proof. intros R OK ST. induction R as [s|n b0 s s1 s2 OK0 ST0 R IH]; [econstructor; [exact OK|exact ST|constructor]|]. econstructor; [exact OK0|exact ST0|apply IH; assumption]. Qed.
(** from every reachable state the run can be completed without buffering anything more *)
Theorem proc_completes n s : prun anything n (pstart P) s -> exists k s', prun no_buffering k s s' /\ all_ended s'.
Proof.
  intros H. remember (2 * length ch - n) as w eqn:W. revert n s H W. induction w as [w IH] using lt_wf_ind. intros n s H W.
  destruct (sim_run _ n _ _ _ _ H sim_start) as (t & R & C & F). cbn in R.
  destruct (inv_run M _ _ _ _ R (inv_init M ch _ NE (fun r => eq_refl))) as [xs [IV [EQ _]]].
  destruct (inv_progress M xs t IV) as [AD | [t' ST]].
  - exists 0, s. split; [constructor|]. intros r. exists (res r). destruct (F r) as (ms & Fr & _). destruct (inv_all_done M xs t IV AD) as [FT _]. rewrite (FT r) in Fr.
    apply follows_nil in Fr. exact Fr.
  - destruct (sim_lift n false s t t') as [s1 PS]; [split; [exact R|split; assumption]|exact ST|].
    pose proof (prun_snoc _ _ _ _ _ _ H I PS) as H1. destruct (proc_choreography _ _ _ H1) as [L _].
    destruct (IH (2 * length ch - S n) ltac:(lia) (S n) s1 H1 eq_refl) as (k & s' & K & E). exists (S k), s'. split; [|exact E]. econstructor; [reflexivity|exact PS|exact K].
Qed.
End Sim.

(** ---- a run without buffering is a choreography ---- *)
Lemma nobuf_choreo n s s' : prun no_buffering n s s' -> (forall p q, pc s p q = []) -> all_ended s' ->
  exists ch res, (forall x, In x ch -> src M x <> dst M x) /\ length ch = n /\ (forall r, follows (pp s r) (project M ch r) (flat_map (to M r) ch) (res r)) /\ forall r, ended s' r (res r).
Proof.
  intros H. induction H as [s|n b s s1 s' OK ST H IH]; intros C F.
  - assert (forall r, exists a, pp s r = Done a) as F' by exact F.
    assert (exists a0 : A, True) as [a0 _] by (destruct (F 0) as [a _]; exists a; exact I).
    exists [], (fun r => match pp s r with Done a => a | _ => a0 end). split; [intros x []|]. split; [reflexivity|].
    split; intros r; destruct (F' r) as [a E]; [cbn|unfold ended]; rewrite E; [constructor|reflexivity].
  - destruct ST as [s p q g m kp kq N Ep Eq Ec | s p q g m c kq Eq Ec | s p q g m kp Ep]; [|rewrite C in Ec; discriminate|discriminate].
    destruct (IH C F) as (ch & res & NE & L & FO & EN). exists (Msg M p q g m :: ch), res. split; [|split; [|split; [|exact EN]]].
    + intros x [<- | Hx]; [exact N|apply NE, Hx].
    + cbn. lia.
    + intros r. specialize (FO r). cbn [pp] in FO. cbn [project flat_map]. change (flat_map (part M r) ch) with (project M ch r). unfold part, to at 1. cbn [src dst mtag body].
      destruct (Nat.eqb_spec r p) as [-> |Np].
      * rewrite (upd_other _ q) in FO by congruence. rewrite upd_same in FO. replace (p =? q) with false by (symmetry; apply Nat.eqb_neq; exact N). rewrite Ep. cbn [app]. constructor. exact FO.
      * destruct (Nat.eqb_spec r q) as [-> |Nq].
        -- rewrite upd_same in FO. rewrite Eq. cbn [app]. constructor. exact FO.
        -- rewrite !upd_other in FO by congruence. cbn [app]. exact FO.
Qed.
End P.
