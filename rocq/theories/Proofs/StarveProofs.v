(** Ranks that wait for messages nobody sends. *)
From Coq Require Import List Arith Bool Lia FunctionalExtensionality.
From Verif Require Import Model.MPI Model.Process Proofs.Choreo Proofs.ProcessProofs.
Import ListNotations.
Local Open Scope nat_scope.

(** p receives at least k messages of rank s before it ends *)
Fixpoint needs {M A} (s : nat) (p : proc M A) (k : nat) : Prop :=
  match k with
  | O => True
  | S k' => match p with Done _ => False | Out _ _ _ p' => needs s p' k | Inp q _ f => forall m, needs s (f m) (if q =? s then k' else k) end
  end.
(** p sends at most g messages to rank q *)
Fixpoint sends_le {M A} (q : nat) (p : proc M A) (g : nat) : Prop :=
  match p with
  | Done _ => True
  | Out d _ _ p' => if d =? q then match g with O => False | S g' => sends_le q p' g' end else sends_le q p' g
  | Inp _ _ f => forall m, sends_le q (f m) g
  end.
(** p sends at most j messages to rank q before it has received k messages of rank f *)
Fixpoint limited {M A} (q f : nat) (p : proc M A) (j k : nat) : Prop :=
  match k with
  | O => True
  | S k' => match p with
      | Done _ => True
      | Out d _ _ p' => if d =? q then match j with O => False | S j' => limited q f p' j' k end else limited q f p' j k
      | Inp s _ g => forall m, limited q f (g m) j (if s =? f then k' else k)
      end
  end.
Lemma needs_eq {M A} s (p : proc M A) k : needs s p k = match k with O => True | S k' => match p with Done _ => False | Out _ _ _ p' => needs s p' k | Inp q _ f => forall m, needs s (f m) (if q =? s then k' else k) end end.
Proof. destruct p, k; reflexivity. Qed.
Lemma limited_eq {M A} q f (p : proc M A) j k : limited q f p j k = match k with O => True | S k' => match p with
      | Done _ => True
      | Out d _ _ p' => if d =? q then match j with O => False | S j' => limited q f p' j' k end else limited q f p' j k
      | Inp s _ g => forall m, limited q f (g m) j (if s =? f then k' else k)
      end end.
Proof. destruct p, k; reflexivity. Qed.
Lemma needs_0 {M A} s (p : proc M A) : needs s p 0.
Proof. rewrite needs_eq. exact I. Qed.
Lemma limited_0 {M A} q f (p : proc M A) j : limited q f p j 0.
Proof. rewrite limited_eq. exact I. Qed.
Lemma needs_le {M A} s (p : proc M A) : forall k k', k' <= k -> needs s p k -> needs s p k'.
Proof.
  induction p as [a|d u m p IH|d u f IH]; intros k k' L; rewrite (needs_eq s _ k), (needs_eq s _ k'); (destruct k as [|k]; [destruct k'; [auto|lia]|]); (destruct k' as [|k']; [auto|]); auto.
  - apply IH. lia.
  - intros H m. specialize (H m). revert H. apply IH. destruct (d =? s); lia.
Qed.
Lemma sends_le_mono {M A} q (p : proc M A) : forall g g', g <= g' -> sends_le q p g -> sends_le q p g'.
Proof.
  induction p as [a|d u m p IH|d u f IH]; intros g g' L; cbn [sends_le]; auto.
  - destruct (d =? q); [|apply IH, L]. destruct g as [|g]; [intros []|]. destruct g' as [|g']; [lia|]. apply IH. lia.
  - intros H m. exact (IH m g g' L (H m)).
Qed.
Lemma needs_bind {M A C} s (p : proc M A) (f : A -> proc M C) : forall j k, needs s p j -> (forall a, needs s (f a) k) -> needs s (pbind p f) (j + k).
Proof.
  induction p as [a|d u m p IH|d u g IH]; intros j k H K; cbn [pbind].
  - destruct j as [|j]; [apply K|]. rewrite needs_eq in H. destruct H.
  - rewrite needs_eq. destruct (j + k) as [|n] eqn:E; [exact I|]. rewrite <- E. apply IH; [|exact K]. rewrite needs_eq in H. destruct j as [|j]; [apply needs_0|exact H].
  - rewrite needs_eq. destruct (j + k) as [|n] eqn:E; [exact I|]. intros m. rewrite needs_eq in H. destruct j as [|j].
    + cbn in E. apply needs_le with (k := 0 + k); [destruct (d =? s); lia|]. apply IH; [apply needs_0|exact K].
    + specialize (H m). destruct (d =? s); [replace n with (j + k) by lia|replace (S n) with (S j + k) by lia]; apply IH; [exact H|exact K|exact H|exact K].
Qed.
Lemma needs_bind0 {M A C} s (p : proc M A) (f : A -> proc M C) j : needs s p j -> needs s (pbind p f) j.
Proof. intros H. replace j with (j + 0) by lia. apply needs_bind; [exact H|]. intros a. apply needs_0. Qed.
Lemma sends_bind {M A C} q (p : proc M A) (f : A -> proc M C) : forall g h, sends_le q p g -> (forall a, sends_le q (f a) h) -> sends_le q (pbind p f) (g + h).
Proof.
  induction p as [a|d u m p IH|d u k IH]; intros g h H K; cbn [pbind].
  - apply sends_le_mono with (g := h); [lia|apply K].
  - cbn [sends_le] in *. destruct (d =? q); [|apply IH; assumption]. destruct g as [|g]; [destruct H|]. cbn [Nat.add]. apply IH; assumption.
  - cbn [sends_le] in *. intros m. apply IH; [apply H|exact K].
Qed.
Lemma limited_bind {M A C} q f (p : proc M A) (F : A -> proc M C) : forall i j k, sends_le q p i -> (forall a, limited q f (F a) j k) -> limited q f (pbind p F) (i + j) k.
Proof.
  assert (forall (x : proc M C) k j j', j <= j' -> limited q f x j k -> limited q f x j' k) as MONO.
  { induction x as [a|d u m x IH|d u g IH]; intros k j j' L; rewrite (limited_eq _ _ _ j k), (limited_eq _ _ _ j' k); destruct k as [|k]; auto.
    - destruct (d =? q); [|apply IH, L]. destruct j as [|j]; [intros []|]. destruct j' as [|j']; [lia|]. apply IH. lia.
    - intros H m. eapply IH; [exact L|apply H]. }
  assert (forall (x : proc M C) k k' j, k' <= k -> limited q f x j k -> limited q f x j k') as MONOK.
  { induction x as [a|d u m x IH|d u g IH]; intros k k' j L; rewrite (limited_eq _ _ _ _ k), (limited_eq _ _ _ _ k'); (destruct k as [|k]; [destruct k'; [auto|lia]|]); (destruct k' as [|k']; [auto|]); auto.
    - destruct (d =? q); [destruct j; [auto|]|]; apply IH; exact L.
    - intros H m. specialize (H m). revert H. apply IH. destruct (d =? f); lia. }
  induction p as [a|d u m p IH|d u g IH]; intros i j k H K; cbn [pbind].
  - apply MONO with (j := j); [lia|apply K].
  - cbn [sends_le] in H. rewrite limited_eq. destruct k as [|k]; [exact I|]. destruct (d =? q); [|apply IH; assumption]. destruct i as [|i]; [destruct H|]. cbn [Nat.add]. apply IH; assumption.
  - cbn [sends_le] in H. rewrite limited_eq. destruct k as [|k]; [exact I|]. intros m. apply IH; [apply H|]. intros a. apply MONOK with (k := S k); [destruct (d =? f); lia|apply K].
Qed.
(** a part that receives k messages of f and sends nothing to q *)
Lemma limited_wait {M A C} q f (p : proc M A) (F : A -> proc M C) : forall j k, sends_le q p 0 -> needs f p k -> limited q f (pbind p F) j k.
Proof.
  induction p as [a|d u m p IH|d u g IH]; intros j k H K; cbn [pbind]; rewrite limited_eq; (destruct k as [|k]; [exact I|]); rewrite needs_eq in K.
  - destruct K.
  - cbn [sends_le] in H. destruct (d =? q); [destruct H|]. apply IH; assumption.
  - cbn [sends_le] in H. intros m. apply IH; [apply H|apply K].
Qed.
Lemma pbind_assoc {M A C D} (p : proc M A) (f : A -> proc M C) (g : C -> proc M D) : pbind (pbind p f) g = pbind p (fun a => pbind (f a) g).
Proof. induction p as [a|d u m p IH|d u k IH]; cbn [pbind]; [reflexivity|f_equal; exact IH|]. f_equal. apply functional_extensionality. exact IH. Qed.

(** p receives a message of rank s under tag t before it ends; p never sends one to q under tag t *)
Fixpoint hears {M A} (s t : nat) (p : proc M A) : Prop :=
  match p with Done _ => False | Out _ _ _ p' => hears s t p' | Inp q u f => (q = s /\ u = t) \/ forall m, hears s t (f m) end.
Fixpoint silent {M A} (q t : nat) (p : proc M A) : Prop :=
  match p with Done _ => True | Out d u _ p' => ~ (d = q /\ u = t) /\ silent q t p' | Inp _ _ f => forall m, silent q t (f m) end.
Lemma hears_bind0 {M A C} s t (p : proc M A) (f : A -> proc M C) : hears s t p -> hears s t (pbind p f).
Proof. induction p as [a|d u m p IH|d u g IH]; cbn [pbind hears]; [intros []|exact IH|]. intros [H|H]; [left; exact H|right; intros m; apply IH, H]. Qed.
Lemma silent_bind {M A C} q t (p : proc M A) (f : A -> proc M C) : silent q t p -> (forall a, silent q t (f a)) -> silent q t (pbind p f).
Proof. induction p as [a|d u m p IH|d u g IH]; cbn [pbind silent]; intros H K; [apply K|split; [apply H|apply IH; [apply H|exact K]]|]. intros m. apply IH; [apply H|exact K]. Qed.
Lemma take_in {M} t (l : list (nat * M)) m c : take t l = Some (m, c) -> In (t, m) l /\ forall x, In x c -> In x l.
Proof.
  revert m c. induction l as [|[t' m'] l IH]; cbn; intros m c H; [discriminate|]. destruct (Nat.eqb_spec t' t) as [-> |]; [injection H as <- <-; auto|].
  destruct (take t l) as [[a b]|]; [|discriminate]. injection H as <- <-. destruct (IH _ _ eq_refl) as [I1 I2]. split; [right; exact I1|]. intros x [<- | Hx]; [left; reflexivity|right; apply I2, Hx].
Qed.

Section Starve.
Variables M A : Type.
Notation pnet := (pnet M A).
Lemma starved_once (s : pnet) q p : q <> p -> (exists n g, needs p (pp s q) n /\ sends_le q (pp s p) g /\ length (pc s p q) + g < n) ->
  forall k s', bruns M A k s s' -> forall a, ~ ended s' q a.
Proof.
  intros N H k s' B. induction B as [s|k r s s1 s' E B IH].
  - intros a K. destruct H as (n & g & H1 & _ & L). unfold ended in K. rewrite K in H1. rewrite needs_eq in H1. destruct n; [lia|destruct H1].
  - apply IH. clear IH B. destruct H as (n & g & H1 & H2 & L). unfold bstep in E. destruct (Nat.eq_dec r q) as [-> |Nq].
    + destruct (pp s q) as [a|d u m x|d u f] eqn:Eq; [discriminate| |].
      * injection E as <-. exists n, g. cbn [pp pc]. rewrite upd_same, upd_other by congruence. rewrite upd2_other by (intros [? ?]; congruence).
        rewrite needs_eq in H1. destruct n as [|n]; [lia|]. auto.
      * destruct (take u (pc s d q)) as [[m c]|] eqn:Ec; [|discriminate]. pose proof (take_length _ _ _ _ _ Ec) as TL. injection E as <-. cbn [pp pc]. rewrite upd_same, upd_other by congruence. rewrite needs_eq in H1. destruct n as [|n]; [lia|].
        specialize (H1 m). destruct (Nat.eqb_spec d p) as [-> |Nd].
        -- exists n, g. rewrite upd2_same. rewrite TL in L. split; [exact H1|]. split; [exact H2|lia].
        -- exists (S n), g. rewrite upd2_other by (intros [? ?]; congruence). auto.
    + destruct (Nat.eq_dec r p) as [-> |Np].
      * destruct (pp s p) as [a|d u m x|d u f] eqn:Ep; [discriminate| |].
        -- injection E as <-. cbn [pp pc]. rewrite upd_same, upd_other by congruence. cbn [sends_le] in H2. destruct (Nat.eqb_spec d q) as [-> |Nd].
           ++ destruct g as [|g]; [destruct H2|]. exists n, g. rewrite upd2_same, app_length. cbn [length]. split; [exact H1|]. split; [exact H2|lia].
           ++ exists n, g. rewrite upd2_other by (intros [? ?]; congruence). auto.
        -- destruct (take u (pc s d p)) as [[m c]|] eqn:Ec; [|discriminate]. pose proof (take_length _ _ _ _ _ Ec) as TL. injection E as <-. cbn [pp pc]. rewrite upd_same, upd_other by congruence. rewrite upd2_other by (intros [? ?]; congruence).
           exists n, g. split; [exact H1|]. split; [apply H2|exact L].
      * exists n, g. destruct (pp s r) as [a|d u m x|d u f]; [discriminate| |destruct (take u (pc s d r)) as [[m c]|]; [|discriminate]]; injection E as <-; cbn [pp pc]; rewrite !upd_other by congruence; rewrite upd2_other by (intros [? ?]; congruence); auto.
Qed.
(** q waits for a message of p under a tag that p does not use for q *)
Lemma starved_tag (s : pnet) q p t : q <> p -> hears p t (pp s q) -> silent q t (pp s p) -> (forall m, ~ In (t, m) (pc s p q)) ->
  forall k s', bruns M A k s s' -> forall a, ~ ended s' q a.
Proof.
  intros N H1 H2 H3 k s' B. induction B as [s|k r s s1 s' E B IH].
  - intros a K. unfold ended in K. rewrite K in H1. exact H1.
  - apply IH; clear IH B; unfold bstep in E; (destruct (pp s r) as [a|d u m x|d u f] eqn:Er; [discriminate|injection E as <-; cbn [pp pc]|destruct (take u (pc s d r)) as [[m c]|] eqn:Ec; [|discriminate]; injection E as <-; cbn [pp pc]]).
    + unfold upd. destruct (Nat.eqb_spec q r) as [-> |]; [rewrite Er in H1; exact H1|exact H1].
    + unfold upd. destruct (Nat.eqb_spec q r) as [-> |]; [|exact H1]. rewrite Er in H1. destruct H1 as [[-> ->]|H1]; [|apply H1]. destruct (take_in _ _ _ _ Ec) as [I _]. destruct (H3 _ I).
    + unfold upd. destruct (Nat.eqb_spec p r) as [-> |]; [rewrite Er in H2; apply H2|exact H2].
    + unfold upd. destruct (Nat.eqb_spec p r) as [-> |]; [rewrite Er in H2; apply H2|exact H2].
    + intros y I. destruct (Nat.eq_dec r p) as [-> |Nr]; [destruct (Nat.eq_dec d q) as [-> |Nd]|].
      * rewrite upd2_same in I. apply in_app_iff in I. destruct I as [I|[I|[]]]; [exact (H3 y I)|]. injection I as -> _. rewrite Er in H2. destruct H2 as [H2 _]. apply H2. auto.
      * rewrite upd2_other in I by (intros [? ?]; congruence). exact (H3 y I).
      * rewrite upd2_other in I by (intros [? ?]; congruence). exact (H3 y I).
    + intros y I. destruct (Nat.eq_dec r q) as [-> |Nr]; [destruct (Nat.eq_dec d p) as [-> |Nd]|].
      * rewrite upd2_same in I. apply (H3 y). apply (take_in _ _ _ _ Ec). exact I.
      * rewrite upd2_other in I by (intros [? ?]; congruence). exact (H3 y I).
      * rewrite upd2_other in I by (intros [? ?]; congruence). exact (H3 y I).
Qed.
(** q waits for p, which waits for f *)
Lemma starved_twice (s : pnet) q p f : q <> p -> p <> f -> q <> f ->
  (exists n j k g, needs p (pp s q) n /\ limited q f (pp s p) j k /\ length (pc s p q) + j < n /\ sends_le p (pp s f) g /\ length (pc s f p) + g < k) ->
  forall t s', bruns M A t s s' -> forall a, ~ ended s' q a.
Proof.
  intros N1 N2 N3 H t s' B. induction B as [s|t r s s1 s' E B IH].
  - intros a K. destruct H as (n & j & k & g & H1 & _ & L & _). unfold ended in K. rewrite K in H1. rewrite needs_eq in H1. destruct n; [lia|destruct H1].
  - apply IH. clear IH B. destruct H as (n & j & k & g & H1 & H2 & L & H3 & L'). unfold bstep in E. destruct (Nat.eq_dec r q) as [-> |Nq]; [|destruct (Nat.eq_dec r p) as [-> |Np]; [|destruct (Nat.eq_dec r f) as [-> |Nf]]].
    + destruct (pp s q) as [a|d u m x|d u h] eqn:Eq; [discriminate| |].
      * injection E as <-. exists n, j, k, g. cbn [pp pc]. rewrite upd_same, !upd_other by congruence. rewrite !upd2_other by (intros [? ?]; congruence).
        rewrite needs_eq in H1. destruct n as [|n]; [lia|]. auto.
      * destruct (take u (pc s d q)) as [[m c]|] eqn:Ec; [|discriminate]. pose proof (take_length _ _ _ _ _ Ec) as TL. injection E as <-. cbn [pp pc]. rewrite upd_same, !upd_other by congruence. rewrite (upd2_other _ _ _ f p) by (intros [? ?]; congruence). rewrite needs_eq in H1. destruct n as [|n]; [lia|].
        specialize (H1 m). destruct (Nat.eqb_spec d p) as [-> |Nd].
        -- exists n, j, k, g. rewrite upd2_same. rewrite TL in L. split; [exact H1|]. split; [exact H2|]. split; [lia|]. auto.
        -- exists (S n), j, k, g. rewrite upd2_other by (intros [? ?]; congruence). auto.
    + destruct k as [|k]; [lia|]. rewrite limited_eq in H2. destruct (pp s p) as [a|d u m x|d u h] eqn:Ep; [discriminate| |].
      * injection E as <-. cbn [pp pc]. rewrite upd_same, !upd_other by congruence. rewrite (upd2_other _ _ _ f p) by (intros [? ?]; congruence). destruct (Nat.eqb_spec d q) as [-> |Nd].
        -- destruct j as [|j]; [destruct H2|]. exists n, j, (S k), g. rewrite upd2_same, app_length. cbn [length]. split; [exact H1|]. split; [exact H2|]. split; [lia|]. auto.
        -- exists n, j, (S k), g. rewrite upd2_other by (intros [? ?]; congruence). auto.
      * destruct (take u (pc s d p)) as [[m c]|] eqn:Ec; [|discriminate]. pose proof (take_length _ _ _ _ _ Ec) as TL. injection E as <-. cbn [pp pc]. rewrite upd_same, !upd_other by congruence. rewrite (upd2_other _ _ _ p q) by (intros [? ?]; congruence).
        specialize (H2 m). destruct (Nat.eqb_spec d f) as [-> |Nd].
        -- exists n, j, k, g. rewrite upd2_same. rewrite TL in L'. split; [exact H1|]. split; [exact H2|]. split; [exact L|]. split; [exact H3|lia].
        -- exists n, j, (S k), g. rewrite upd2_other by (intros [? ?]; congruence). auto.
    + destruct (pp s f) as [a|d u m x|d u h] eqn:Ef; [discriminate| |].
      * injection E as <-. cbn [pp pc]. rewrite upd_same, !upd_other by congruence. rewrite (upd2_other _ _ _ p q) by (intros [? ?]; congruence). cbn [sends_le] in H3. destruct (Nat.eqb_spec d p) as [-> |Nd].
        -- destruct g as [|g]; [destruct H3|]. exists n, j, k, g. rewrite upd2_same, app_length. cbn [length]. split; [exact H1|]. split; [exact H2|]. split; [exact L|]. split; [exact H3|lia].
        -- exists n, j, k, g. rewrite upd2_other by (intros [? ?]; congruence). auto.
      * destruct (take u (pc s d f)) as [[m c]|] eqn:Ec; [|discriminate]. injection E as <-. cbn [pp pc]. rewrite upd_same, !upd_other by congruence. rewrite !upd2_other by (intros [? ?]; congruence).
        exists n, j, k, g. split; [exact H1|]. split; [exact H2|]. split; [exact L|]. split; [apply H3|exact L'].
    + exists n, j, k, g. destruct (pp s r) as [a|d u m x|d u h]; [discriminate| |destruct (take u (pc s d r)) as [[m c]|]; [|discriminate]]; injection E as <-; cbn [pp pc]; rewrite !upd_other by congruence; rewrite !upd2_other by (intros [? ?]; congruence); auto.
Qed.
(** if a rank returns in no run from a reachable state, it returns in no run *)
Lemma starved_later (P : nat -> proc M A) n s q : prun (@anything) n (pstart P) s -> (forall k s', bruns M A k s s' -> forall a, ~ ended s' q a) ->
  forall n' s' a, prun (@anything) n' (pstart P) s' -> ~ ended s' q a.
Proof.
  intros R H n' s' a R' E. destruct (prun_bruns _ _ _ _ _ _ R) as (k1 & _ & B1). destruct (prun_bruns _ _ _ _ _ _ R') as (k2 & _ & B2).
  destruct (confluent _ _ _ _ _ B2 _ _ B1) as (x & y & s3 & C1 & C2). apply (H _ _ C1 a). exact (ended_kept _ _ _ _ _ _ _ C2 E).
Qed.
End Starve.

(** a run of the first halves of the programs is a run of the programs *)
Definition followed_by {M A C} (s : pnet M A) (g : nat -> A -> proc M C) : pnet M C := PNet (fun r => pbind (pp s r) (g r)) (pc s).
Lemma upd_map {X Y} (h : nat -> X -> Y) (f : nat -> X) i x : (fun r => h r (upd f i x r)) = upd (fun r => h r (f r)) i (h i x).
Proof. apply functional_extensionality. intros r. unfold upd. destruct (Nat.eqb_spec r i) as [-> |]; reflexivity. Qed.
Lemma followed_run {M A C} ok n (s s' : pnet M A) (g : nat -> A -> proc M C) : prun ok n s s' -> prun ok n (followed_by s g) (followed_by s' g).
Proof.
  intros R. induction R as [s|n b s s1 s2 OK ST R IH]; [constructor|]. econstructor; [exact OK| |exact IH]. clear - ST.
  pose (h := fun r (x : proc M A) => pbind x (g r)).
  assert (forall f i x, (fun r => pbind (upd f i x r) (g r)) = upd (fun r => pbind (f r) (g r)) i (pbind x (g i))) as U by (intros f i x; exact (upd_map h f i x)).
  unfold followed_by. destruct ST as [s p q u m kp kq N Ep Eq Ec | s p q u m c kq Eq Ec | s p q u m kp Ep]; cbn [pp pc]; rewrite !U.
  - apply (@ps_rendezvous M C (PNet (fun r => pbind (pp s r) (g r)) (pc s)) p q u m (pbind kp (g p)) (fun m => pbind (kq m) (g q)) N); cbn [pp pc]; [rewrite Ep|rewrite Eq|rewrite Ec]; reflexivity.
  - apply (@ps_receive M C (PNet (fun r => pbind (pp s r) (g r)) (pc s)) p q u m c (fun m => pbind (kq m) (g q))); cbn [pp pc]; [rewrite Eq; reflexivity|exact Ec].
  - apply (@ps_buffer M C (PNet (fun r => pbind (pp s r) (g r)) (pc s)) p q u m (pbind kp (g p))); cbn [pp pc]. rewrite Ep. reflexivity.
Qed.
