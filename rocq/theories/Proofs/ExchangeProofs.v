(** exchange as projections of a global list of messages *)
From Coq Require Import List ZArith Reals Bool Arith Lia.
From Verif Require Import Model.Base Model.MPI Model.Migration Proofs.Choreo.
Import ListNotations.
Local Open Scope nat_scope.

Definition below (e : exports) : list (list R) := firstn (nsb e) (rows e).
Definition above (e : exports) : list (list R) := firstn (nsa e) (skipn (nsb e) (rows e)).
Definition down (size : nat) (ex : nat -> exports) : list (msg (list (list R))) := map (fun r => Msg _ (r + 1) r 11 (below (ex (r + 1)))) (seq 0 (size - 1)).
Definition up (size : nat) (ex : nat -> exports) : list (msg (list (list R))) := map (fun r => Msg _ r (r + 1) 11 (above (ex r))) (rev (seq 0 (size - 1))).
Definition chor (size : nat) (ex : nat -> exports) := down size ex ++ up size ex.
(** flat_map over seq where only r-1 and r matter *)
Lemma fm_seq {A} (f : nat -> list A) n r : (forall k, k < n -> k <> r -> S k <> r -> f k = []) ->
  flat_map f (seq 0 n) = (match r with O => [] | S k => if k <? n then f k else [] end) ++ (if r <? n then f r else []).
Proof.
  intros H. assert (forall a m, (forall k, a <= k < a + m -> f k = []) -> flat_map f (seq a m) = []) as Z.
  { intros a m HZ. apply fm_nil. intros k Hk. apply in_seq in Hk. apply HZ. lia. }
  destruct r as [|r].
  - destruct n as [|n]; [reflexivity|]. cbn [seq flat_map Nat.ltb Nat.leb app]. rewrite Z; [apply app_nil_r|]. intros k Hk. apply H; lia.
  - destruct (Nat.ltb_spec r n) as [L|L].
    + replace n with (r + S (n - r - 1)) at 1 by lia. rewrite seq_app, flat_map_app. rewrite (Z 0 r) by (intros k Hk; apply H; lia).
      cbn [seq flat_map app Nat.add]. f_equal. destruct (Nat.ltb_spec (S r) n) as [L2|L2].
      * replace (n - r - 1) with (S (n - r - 2)) by lia. cbn [seq flat_map]. rewrite Z; [apply app_nil_r|]. intros k Hk. apply H; lia.
      * replace (n - r - 1) with 0 by lia. reflexivity.
    + replace (S r <? n) with false by (symmetry; apply Nat.ltb_ge; lia). cbn. apply Z. intros k Hk. apply H; lia.
Qed.
Lemma fm_rev_seq {A} (f : nat -> list A) n r : (forall k, k < n -> k <> r -> S k <> r -> f k = []) ->
  flat_map f (rev (seq 0 n)) = (if r <? n then f r else []) ++ (match r with O => [] | S k => if k <? n then f k else [] end).
Proof.
  intros H. assert (forall a m, (forall k, a <= k < a + m -> f k = []) -> flat_map f (rev (seq a m)) = []) as Z.
  { intros a m HZ. apply fm_nil. intros k Hk. apply in_rev, in_seq in Hk. apply HZ. lia. }
  destruct r as [|r].
  - destruct n as [|n]; [reflexivity|]. cbn [seq rev Nat.ltb Nat.leb app]. rewrite flat_map_app. rewrite Z; [reflexivity|]. intros k Hk. apply H; lia.
  - destruct (Nat.ltb_spec r n) as [L|L].
    + replace n with (r + S (n - r - 1)) at 1 by lia. rewrite seq_app, rev_app_distr, flat_map_app. rewrite (Z 0 r) by (intros k Hk; apply H; lia). rewrite app_nil_r.
      cbn [seq rev app Nat.add]. rewrite flat_map_app. cbn [flat_map]. rewrite app_nil_r. f_equal. destruct (Nat.ltb_spec (S r) n) as [L2|L2].
      * replace (n - r - 1) with (S (n - r - 2)) by lia. cbn [seq rev]. rewrite flat_map_app. rewrite Z; [cbn; rewrite app_nil_r; reflexivity|]. intros k Hk. apply H; lia.
      * replace (n - r - 1) with 0 by lia. reflexivity.
    + replace (S r <? n) with false by (symmetry; apply Nat.ltb_ge; lia). cbn. apply Z. intros k Hk. apply H; lia.
Qed.
Ltac eqb_cases := repeat match goal with
  | |- context [?a =? ?b] => destruct (Nat.eqb_spec a b); try lia
  | |- context [?a <? ?b] => destruct (Nat.ltb_spec a b); try lia end.
Lemma project_chor size ex r : 2 <= size -> r < size -> (0 < r -> nsb (ex r) <> 0) -> (r + 1 < size -> nsa (ex r) <> 0) ->
  project _ (chor size ex) r = exchange size r (ex r).
Proof.
  intros S2 Lr HB HA. unfold project, chor. rewrite fm_app. unfold down, up. rewrite !fm_map.
  rewrite (fm_seq _ (size - 1) r) by (intros k L N1 N2; unfold part; cbn; eqb_cases; reflexivity).
  rewrite (fm_rev_seq _ (size - 1) r) by (intros k L N1 N2; unfold part; cbn; eqb_cases; reflexivity).
  unfold exchange. assert ((nsb (ex r) =? 0) && (nsa (ex r) =? 0) = false) as ->.
  { apply andb_false_iff. destruct r as [|r]; [right|left]; apply Nat.eqb_neq; [apply HA; lia|apply HB; lia]. }
  fold (below (ex r)) (above (ex r)). rewrite <- app_assoc. f_equal; [|f_equal; [|f_equal]].
  - destruct r as [|r]; [rewrite andb_false_r; reflexivity|]. replace (nsb (ex (S r)) =? 0) with false by (symmetry; apply Nat.eqb_neq, HB; lia).
    replace (r <? size - 1) with true by (symmetry; apply Nat.ltb_lt; lia). unfold part. cbn. rewrite Nat.add_1_r, Nat.eqb_refl, Nat.sub_0_r. reflexivity.
  - destruct (Nat.ltb_spec r (size - 1)) as [L|L].
    + replace (r =? size - 1) with false by (symmetry; apply Nat.eqb_neq; lia). unfold part. cbn. eqb_cases. reflexivity.
    + replace (r =? size - 1) with true by (symmetry; apply Nat.eqb_eq; lia). reflexivity.
  - destruct (Nat.ltb_spec r (size - 1)) as [L|L].
    + replace (r =? size - 1) with false by (symmetry; apply Nat.eqb_neq; lia). replace (nsa (ex r) =? 0) with false by (symmetry; apply Nat.eqb_neq, HA; lia).
      unfold part. cbn. rewrite Nat.eqb_refl. reflexivity.
    + replace (r =? size - 1) with true by (symmetry; apply Nat.eqb_eq; lia). rewrite andb_false_r. reflexivity.
  - destruct r as [|r]; [reflexivity|]. replace (r <? size - 1) with true by (symmetry; apply Nat.ltb_lt; lia). unfold part. cbn [src dst mtag body]. replace (S r - 1) with r by lia. eqb_cases. reflexivity.
Qed.
Lemma project_chor_out size ex r : size <= r -> project _ (chor size ex) r = [].
Proof.
  intros L. apply fm_nil. intros x Hx. unfold chor in Hx. apply in_app_iff in Hx. destruct Hx as [Hx|Hx]; apply in_map_iff in Hx; destruct Hx as [k [<- Hk]].
  - apply in_seq in Hk. unfold part. cbn. eqb_cases. reflexivity.
  - apply in_rev, in_seq in Hk. unfold part. cbn. eqb_cases. reflexivity.
Qed.
Lemma chor_distinct size ex x : In x (chor size ex) -> src _ x <> dst _ x.
Proof. intros H. unfold chor in H. apply in_app_iff in H. destruct H as [H|H]; apply in_map_iff in H; destruct H as [k [<- _]]; cbn; lia. Qed.
Lemma to_chor size ex r : 2 <= size -> r < size -> flat_map (to _ r) (chor size ex) =
  (if r + 1 <? size then [(r + 1, below (ex (r + 1)))] else []) ++ (if r =? 0 then [] else [(r - 1, above (ex (r - 1)))]).
Proof.
  intros S2 Lr. unfold chor. rewrite fm_app. unfold down, up. rewrite !fm_map.
  rewrite (fm_seq _ (size - 1) r) by (intros k L N1 N2; unfold to; cbn; eqb_cases; reflexivity).
  rewrite (fm_rev_seq _ (size - 1) r) by (intros k L N1 N2; unfold to; cbn; eqb_cases; reflexivity).
  unfold to. cbn [src dst mtag body]. destruct r as [|r].
  - eqb_cases; reflexivity.
  - replace (S r - 1) with r by lia. eqb_cases; reflexivity.
Qed.
Lemma chor_length size ex : length (chor size ex) = 2 * (size - 1).
Proof. unfold chor, down, up. rewrite app_length, !map_length, rev_length, seq_length. lia. Qed.
(** several iterations; tbl j r: the table of rank r in iteration j *)
Definition tables (K : nat) (tbl : nat -> nat -> exports) (r : nat) : list exports := map (fun j => tbl j r) (seq 0 K).
Definition full_tables (size K : nat) (tbl : nat -> nat -> exports) : Prop :=
  forall j r, j < K -> r < size -> (0 < r -> nsb (tbl j r) <> 0) /\ (r + 1 < size -> nsa (tbl j r) <> 0).
Definition chors (size K : nat) (tbl : nat -> nat -> exports) := flat_map (fun j => chor size (tbl j)) (seq 0 K).
Lemma fm_fm {A C E} (f : C -> list E) (g : A -> list C) l : flat_map f (flat_map g l) = flat_map (fun x => flat_map f (g x)) l.
Proof. induction l as [|x l IH]; [reflexivity|]. cbn. rewrite flat_map_app, IH. reflexivity. Qed.
Lemma fm_ext {A C} (f g : A -> list C) l : (forall x, In x l -> f x = g x) -> flat_map f l = flat_map g l.
Proof. induction l as [|x l IH]; intros H; [reflexivity|]. cbn. rewrite (H x), IH; [reflexivity| |left; reflexivity]. intros y Hy. apply H. right. exact Hy. Qed.
Lemma project_chors size K tbl r : 2 <= size -> full_tables size K tbl -> exchange_all size (tables K tbl) r = project _ (chors size K tbl) r.
Proof.
  intros S2 F. unfold exchange_all, exchanges, tables, project, chors. rewrite fm_fm, fm_map. destruct (Nat.ltb_spec r size) as [L|L].
  - apply fm_ext. intros j Hj. apply in_seq in Hj. destruct (F j r ltac:(lia) L) as [FB FA]. symmetry. apply (project_chor size (tbl j) r S2 L FB FA).
  - symmetry. apply fm_nil. intros j _. apply (project_chor_out size (tbl j) r L).
Qed.
Lemma chors_distinct size K tbl x : In x (chors size K tbl) -> src _ x <> dst _ x.
Proof. intros H. apply in_flat_map in H. destruct H as [j [_ H]]. apply (chor_distinct _ _ _ H). Qed.
Lemma chors_length size K tbl : length (chors size K tbl) = K * (2 * (size - 1)).
Proof.
  unfold chors. rewrite flat_map_concat_map. assert (forall l, length (concat (map (fun j => chor size (tbl j)) l)) = length l * (2 * (size - 1))) as G.
  { induction l as [|j l IH]; [reflexivity|]. cbn [map concat]. rewrite app_length, IH, chor_length. cbn [length]. lia. }
  rewrite G, seq_length. reflexivity.
Qed.
Theorem exchange_ok size K tbl : 2 <= size -> full_tables size K tbl -> forall n s, run n (start (exchange_all size (tables K tbl))) s ->
  n <= 4 * (size - 1) * K /\ (~ finished s -> exists s', step false s s') /\
  (finished s -> (forall p q, chan s p q = []) /\ forall r, r < size ->
     log s r = flat_map (fun j => (if r + 1 <? size then [(r + 1, below (tbl j (r + 1)))] else []) ++ (if r =? 0 then [] else [(r - 1, above (tbl j (r - 1)))])) (seq 0 K)).
Proof.
  intros S2 F n s R. destruct (choreography _ _ _ (chors_distinct size K tbl) (fun r => project_chors size K tbl r S2 F) n s R) as [L [P C]].
  rewrite chors_length in L. split; [lia|]. split; [exact P|]. intros FI. destruct (C FI) as [C1 C2]. split; [exact C1|]. intros r Lr.
  rewrite C2. unfold chors. rewrite fm_fm. apply fm_ext. intros j _. apply to_chor; assumption.
Qed.

(** ---- nothing to send ---- *)
Definition active (e : exports) : Prop := nsb e <> 0 \/ nsa e <> 0.
Lemma active_dec e : {active e} + {nsb e = 0 /\ nsa e = 0}.
Proof. unfold active. destruct (Nat.eq_dec (nsb e) 0), (Nat.eq_dec (nsa e) 0); [right; tauto|left; tauto..]. Qed.
Lemma recvs_above size r e : r + 1 < size -> active e -> recvs _ (r + 1) (exchange size r e) = 1.
Proof.
  intros L A. unfold exchange. replace ((nsb e =? 0) && (nsa e =? 0)) with false by (symmetry; apply andb_false_iff; destruct A; [left|right]; apply Nat.eqb_neq; assumption).
  replace (r =? size - 1) with false by (symmetry; apply Nat.eqb_neq; lia). unfold recvs. rewrite !filter_app, !app_length.
  assert (forall b d u m, length (filter (is_recv_from (list (list R)) (r + 1)) (if b : bool then [Send d u m] else [])) = 0) as Z by (intros [|] d u m; reflexivity).
  rewrite !Z. cbn. rewrite Nat.eqb_refl. destruct (Nat.eqb_spec r 0); cbn; [reflexivity|]. replace (r - 1 =? r + 1) with false by (symmetry; apply Nat.eqb_neq; lia). reflexivity.
Qed.
Lemma recvs_below size r e : 0 < r -> active e -> recvs _ (r - 1) (exchange size r e) = 1.
Proof.
  intros L A. unfold exchange. replace ((nsb e =? 0) && (nsa e =? 0)) with false by (symmetry; apply andb_false_iff; destruct A; [left|right]; apply Nat.eqb_neq; assumption).
  replace (r =? 0) with false by (symmetry; apply Nat.eqb_neq; lia). unfold recvs. rewrite !filter_app, !app_length.
  assert (forall b d u m, length (filter (is_recv_from (list (list R)) (r - 1)) (if b : bool then [Send d u m] else [])) = 0) as Z by (intros [|] d u m; reflexivity).
  rewrite !Z. cbn. rewrite Nat.eqb_refl. destruct (Nat.eqb_spec r (size - 1)); cbn; [reflexivity|]. replace (r + 1 =? r - 1) with false by (symmetry; apply Nat.eqb_neq; lia). reflexivity.
Qed.
Lemma sends_none_below size r e : 0 < r -> nsb e = 0 -> sends _ (r - 1) (exchange size r e) = 0.
Proof.
  intros L A. unfold exchange. rewrite A. cbn [Nat.eqb]. destruct (nsa e =? 0); [reflexivity|]. cbn [andb negb]. unfold sends. rewrite !filter_app, !app_length. cbn.
  destruct (r =? size - 1), (r =? 0); cbn; try reflexivity; replace (r + 1 =? r - 1) with false by (symmetry; apply Nat.eqb_neq; lia); reflexivity.
Qed.
Lemma sends_none_above size r e : nsa e = 0 -> sends _ (r + 1) (exchange size r e) = 0.
Proof.
  intros A. unfold exchange. rewrite A. cbn [Nat.eqb]. rewrite andb_true_r. destruct (nsb e =? 0); [reflexivity|]. cbn [andb negb]. unfold sends. rewrite !filter_app, !app_length. cbn.
  destruct (r =? size - 1), (Nat.eqb_spec r 0); cbn; try reflexivity; replace (r - 1 =? r + 1) with false by (symmetry; apply Nat.eqb_neq; lia); reflexivity.
Qed.
Definition one (ex : nat -> exports) (r : nat) : list exports := [ex r].
Lemma exchange_one size ex r : r < size -> exchange_all size (one ex) r = exchange size r (ex r).
Proof. intros L. unfold exchange_all, exchanges, one. replace (r <? size) with true by (symmetry; apply Nat.ltb_lt; exact L). cbn. apply app_nil_r. Qed.
Lemma starved_above size ex n s r : run n (start (exchange_all size (one ex))) s -> r + 1 < size -> active (ex r) -> nsb (ex (r + 1)) = 0 -> prog s r <> [].
Proof.
  intros Rn L A Z. apply (starved _ _ n s (r + 1) r Rn). rewrite !exchange_one by lia. rewrite (recvs_above size r _ L A).
  replace r with (r + 1 - 1) at 1 by lia. rewrite (sends_none_below size (r + 1) _ ltac:(lia) Z). lia.
Qed.
Lemma starved_below size ex n s r : run n (start (exchange_all size (one ex))) s -> r + 1 < size -> active (ex (r + 1)) -> nsa (ex r) = 0 -> prog s (r + 1) <> [].
Proof.
  intros Rn L A Z. apply (starved _ _ n s r (r + 1) Rn). rewrite !exchange_one by lia. rewrite (sends_none_above size r _ Z).
  pose proof (recvs_below size (r + 1) _ ltac:(lia) A) as K. replace (r + 1 - 1) with r in K by lia. rewrite K. lia.
Qed.
Theorem completes_iff size ex : 2 <= size ->
  ((exists n s, run n (start (exchange_all size (one ex))) s /\ finished s) <->
   (forall r, r < size -> nsb (ex r) = 0 /\ nsa (ex r) = 0) \/
   (forall r, r < size -> (0 < r -> nsb (ex r) <> 0) /\ (r + 1 < size -> nsa (ex r) <> 0))).
Proof.
  intros S2. split.
  - intros [n [s [Rn F]]].
    assert (forall r, r + 1 < size -> active (ex r) -> nsb (ex (r + 1)) <> 0) as H1 by (intros r L A Z; exact (starved_above size ex n s r Rn L A Z (F r))).
    assert (forall r, r + 1 < size -> active (ex (r + 1)) -> nsa (ex r) <> 0) as H2 by (intros r L A Z; exact (starved_below size ex n s r Rn L A Z (F (r + 1)))).
    assert (forall r, r < size -> (active (ex r) <-> active (ex 0))) as H3.
    { induction r as [|r IH]; intros L; [tauto|]. rewrite <- IH by lia. split; intros A.
      - right. apply H2; [lia|]. replace (r + 1) with (S r) by lia. exact A.
      - left. replace (S r) with (r + 1) by lia. apply H1; [lia|exact A]. }
    destruct (active_dec (ex 0)) as [A|NA].
    + right. intros r L. split.
      * intros P. replace r with (r - 1 + 1) by lia. apply H1; [lia|]. apply H3; [lia|exact A].
      * intros P. apply H2; [exact P|]. apply H3; [lia|exact A].
    + left. intros r L. destruct (active_dec (ex r)) as [A|N]; [|exact N]. apply H3 in A; [|exact L]. unfold active in A. lia.
  - intros [H|H].
    + exists 0, (start (exchange_all size (one ex))). split; [constructor|]. intros r. cbn [prog start]. unfold exchange_all. destruct (Nat.ltb_spec r size) as [L|L]; [|reflexivity].
      unfold exchanges, one. cbn [flat_map]. unfold exchange. destruct (H r L) as [H1 H2]. rewrite H1, H2. reflexivity.
    + assert (full_tables size 1 (fun _ => ex)) as F by (intros j r _ L; apply H, L).
      destruct (choreography_completes _ _ _ (chors_distinct size 1 (fun _ => ex)) (fun r => project_chors size 1 (fun _ => ex) r S2 F) 0 _ (run_nil _)) as [k [s' [Rn FI]]].
      exists k, s'. split; [exact Rn|exact FI].
Qed.
(** two ranks; rank 1 has nothing to send in the first iteration *)
Theorem iterations_mixed a1 a2 b1 b2 : nsa a1 <> 0 -> nsb b1 = 0 -> nsa b1 = 0 -> nsb b2 <> 0 ->
  let s0 := start (exchange_all 2 (fun r => match r with 0 => [a1; a2] | _ => [b1; b2] end)) in
  (exists n s, run n s0 s /\ prog s 0 = exchange 2 0 a2 /\ prog s 1 = [] /\ log s 0 = [(1, below b2)] /\ log s 1 = [(0, above a1)]).
Proof.
  intros H1 H2 H3 H4 s0. 
  assert (prog s0 0 = Recv 1 11 :: Send 1 11 (above a1) :: exchange 2 0 a2) as E0.
  { unfold s0, exchange_all, exchanges. cbn [prog start Nat.ltb Nat.leb flat_map]. rewrite app_nil_r. unfold exchange at 1. replace (nsa a1 =? 0) with false by (symmetry; apply Nat.eqb_neq; exact H1). rewrite !andb_false_r. cbn. reflexivity. }
  assert (prog s0 1 = [Send 0 11 (below b2); Recv 0 11]) as E1.
  { unfold s0, exchange_all, exchanges. cbn [prog start Nat.ltb Nat.leb flat_map]. rewrite app_nil_r. unfold exchange at 1. rewrite H2, H3. cbn [Nat.eqb andb app].
    unfold exchange. replace (nsb b2 =? 0) with false by (symmetry; apply Nat.eqb_neq; exact H4). cbn. rewrite andb_false_r. reflexivity. }
  exists 2. eexists. split; [|split; [|split; [|split]]].
  - eapply run_cons; [eapply (st_rendezvous s0 (p:=1) (q:=0)); [lia|exact E1|exact E0|reflexivity]|].
    eapply run_cons; [eapply (st_rendezvous _ (p:=0) (q:=1)); [lia|reflexivity|reflexivity|reflexivity]|]. apply run_nil.
  - reflexivity.
  - reflexivity.
  - reflexivity.
  - reflexivity.
Qed.
