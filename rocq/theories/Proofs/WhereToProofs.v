(** Facts about Model/WhereTo.v *)
From Coq Require Import List ZArith Reals Bool Arith Lia Lra Sorted.
From Flocq Require Import Core.
From Verif Require Import Model.Base Model.Simplex Model.Migration Model.WhereTo Spec.Linear Spec.Export Proofs.ListAux Proofs.MeshAux.
Import ListNotations.
Local Open Scope nat_scope.

(** ---- min_list / max_list ---- *)
Lemma min_list_le l x : l <> [] -> ((min_list l <= x)%R <-> exists y, In y l /\ (y <= x)%R).
Proof.
  induction l as [|a l IH]; [congruence|intros _]. destruct l as [|b l].
  - cbn. split; [intros; exists a; auto|intros (y & [<-|[]] & H); exact H].
  - change (min_list (a :: b :: l)) with (Rmin a (min_list (b :: l))). specialize (IH ltac:(discriminate)). split.
    + intros H. unfold Rmin in H. destruct (Rle_dec a (min_list (b :: l))).
      * exists a. split; [left; reflexivity|exact H].
      * apply IH in H. destruct H as (y & I & H). exists y. split; [right; exact I|exact H].
    + intros (y & [<-|I] & H).
      * pose proof (Rmin_l a (min_list (b :: l))). lra.
      * pose proof (Rmin_r a (min_list (b :: l))). assert (min_list (b :: l) <= x)%R by (apply IH; exists y; auto). lra.
Qed.
Lemma max_list_ge l x : l <> [] -> ((x <= max_list l)%R <-> exists y, In y l /\ (x <= y)%R).
Proof.
  induction l as [|a l IH]; [congruence|intros _]. destruct l as [|b l].
  - cbn. split; [intros; exists a; auto|intros (y & [<-|[]] & H); exact H].
  - change (max_list (a :: b :: l)) with (Rmax a (max_list (b :: l))). specialize (IH ltac:(discriminate)). split.
    + intros H. unfold Rmax in H. destruct (Rle_dec a (max_list (b :: l))).
      * apply IH in H. destruct H as (y & I & H). exists y. split; [right; exact I|exact H].
      * exists a. split; [left; reflexivity|exact H].
    + intros (y & [<-|I] & H).
      * pose proof (Rmax_l a (max_list (b :: l))). lra.
      * pose proof (Rmax_r a (max_list (b :: l))). assert (x <= max_list (b :: l))%R by (apply IH; exists y; auto). lra.
Qed.

(** ---- overlap ---- *)
Lemma do_overlap_spec lo1 hi1 lo2 hi2 d : length lo1 = d -> length hi1 = d -> length lo2 = d -> length hi2 = d ->
  Forall2 Rle lo1 hi1 -> Forall2 Rle lo2 hi2 ->
  (do_overlap lo1 hi1 lo2 hi2 = true <-> exists q, within (lo2, hi2) q /\ Forall2 Rle lo1 q /\ Forall2 Rle q hi1).
Proof.
  intros L1 L2 L3 L4 F1 F2. revert hi1 lo2 hi2 d L1 L2 L3 L4 F1 F2.
  induction lo1 as [|a lo1 IH]; intros [|b hi1] [|c lo2] [|e hi2] d L1 L2 L3 L4 F1 F2; cbn in *; subst; try discriminate.
  - split; [intros _; exists []; repeat split; constructor|reflexivity].
  - inversion F1; inversion F2; subst. rewrite !andb_true_iff, !negb_true_iff, !Rltb_false.
    rewrite (IH hi1 lo2 hi2 (length lo1)) by (try lia; assumption). split.
    + intros [[A B] (q & [W1 W2] & Q1 & Q2)]. exists (Rmax a c :: q). cbn in W1, W2. unfold Rmax. destruct (Rle_dec a c); repeat split; cbn; constructor; try lra; assumption.
    + intros (q & [W1 W2] & Q1 & Q2). cbn in W1, W2. destruct q as [|x q]; [inversion W1|]. inversion W1; inversion W2; inversion Q1; inversion Q2; subst.
      split; [lra|]. exists q. repeat split; assumption.
Qed.

Lemma F2_len {A B} (P : A -> B -> Prop) l l' : Forall2 P l l' -> length l = length l'.
Proof. induction 1; cbn; congruence. Qed.
Lemma Forall2_nth (P : R -> R -> Prop) l l' : Forall2 P l l' <-> length l = length l' /\ forall k, k < length l -> P (nth k l 0%R) (nth k l' 0%R).
Proof.
  split.
  - intros F. split; [eapply F2_len; eauto|]. induction F; intros k Hk; [cbn in Hk; lia|]. destruct k; [assumption|]. cbn in *. apply IHF. lia.
  - revert l'. induction l as [|a l IH]; intros [|b l'] [L H]; try discriminate; constructor.
    + apply (H 0). cbn. lia.
    + apply IH. split; [cbn in L; lia|]. intros k Hk. apply (H (S k)). cbn. lia.
Qed.

Section S.
Variable d : nat.
Lemma elo_len s : length (element_lo d s) = d. Proof. unfold element_lo. rewrite map_length, seq_length. reflexivity. Qed.
Lemma ehi_len s : length (element_hi d s) = d. Proof. unfold element_hi. rewrite map_length, seq_length. reflexivity. Qed.
Lemma elo_nth s k : k < d -> nth k (element_lo d s) 0%R = min_list (map (fun p => nth k p 0%R) s).
Proof. intros H. unfold element_lo. rewrite (nth_map' _ _ k 0%R 0) by (rewrite seq_length; exact H). rewrite seq_nth by exact H. reflexivity. Qed.
Lemma ehi_nth s k : k < d -> nth k (element_hi d s) 0%R = max_list (map (fun p => nth k p 0%R) s).
Proof. intros H. unfold element_hi. rewrite (nth_map' _ _ k 0%R 0) by (rewrite seq_length; exact H). rewrite seq_nth by exact H. reflexivity. Qed.
Lemma map_ne {A B} (f : A -> B) l : l <> [] -> map f l <> [].
Proof. destruct l; cbn; congruence. Qed.
Lemma elohi s : s <> [] -> Forall2 Rle (element_lo d s) (element_hi d s).
Proof.
  intros NE. apply Forall2_nth. rewrite elo_len, ehi_len. split; [reflexivity|]. intros k Hk. rewrite elo_nth, ehi_nth by exact Hk.
  destruct s as [|p s]; [congruence|]. apply Rle_trans with (nth k p 0%R).
  - apply min_list_le; [discriminate|]. exists (nth k p 0%R). split; [left; reflexivity|lra].
  - apply max_list_ge; [discriminate|]. exists (nth k p 0%R). split; [left; reflexivity|lra].
Qed.
Lemma overlap_span s b : s <> [] -> length (fst b) = d -> length (snd b) = d -> Forall2 Rle (fst b) (snd b) ->
  (do_overlap (element_lo d s) (element_hi d s) (fst b) (snd b) = true <-> span_meets d s b).
Proof.
  intros NE L1 L2 F. destruct b as [lo hi]. cbn [fst snd] in *.
  rewrite (do_overlap_spec _ _ lo hi d (elo_len s) (ehi_len s) L1 L2 (elohi s NE) F). unfold span_meets. split.
  - intros (q & W & Q1 & Q2). exists q. split; [exact W|]. intros k Hk. apply Forall2_nth in Q1. apply Forall2_nth in Q2.
    destruct Q1 as [LQ Q1]. destruct Q2 as [_ Q2]. rewrite elo_len in *. specialize (Q1 k Hk). specialize (Q2 k ltac:(lia)). rewrite elo_nth in Q1 by exact Hk. rewrite ehi_nth in Q2 by exact Hk.
    apply min_list_le in Q1; [|apply map_ne, NE]. apply max_list_ge in Q2; [|apply map_ne, NE].
    destruct Q1 as (x & I1 & H1). destruct Q2 as (y & I2 & H2). apply in_map_iff in I1. apply in_map_iff in I2. destruct I1 as (p & <- & I1). destruct I2 as (p' & <- & I2).
    split; [exists p|exists p']; auto.
  - intros (q & W & H). exists q. split; [exact W|]. assert (length q = d) as Lq by (destruct W as [W _]; apply F2_len in W; cbn in W; lia).
    split; apply Forall2_nth; rewrite ?elo_len, ?ehi_len, ?Lq; (split; [reflexivity|]); intros k Hk; destruct (H k Hk) as [(p & I & B) (p' & I' & B')].
    + rewrite elo_nth by exact Hk. apply min_list_le; [apply map_ne, NE|]. exists (nth k p 0%R). split; [apply (in_map (fun p => nth k p 0%R)), I|exact B].
    + rewrite ehi_nth by exact Hk. apply max_list_ge; [apply map_ne, NE|]. exists (nth k p' 0%R). split; [apply (in_map (fun p => nth k p 0%R)), I'|exact B'].
Qed.

Variable meets : list (list R) -> corners -> bool.
Variables box1 box2 : corners.
Hypothesis B1 : length (fst box1) = d /\ length (snd box1) = d /\ Forall2 Rle (fst box1) (snd box1).
Hypothesis B2 : length (fst box2) = d /\ length (snd box2) = d /\ Forall2 Rle (fst box2) (snd box2).

Lemma usable_dec s : s <> [] ->
  ((do_overlap (element_lo d s) (element_hi d s) (fst box1) (snd box1) || do_overlap (element_lo d s) (element_hi d s) (fst box2) (snd box2) = true /\ Reqb (simp_vol s) 0 = false) <-> usable d box1 box2 s).
Proof.
  intros NE. unfold usable. rewrite orb_true_iff, Reqb_false, !overlap_span by (try exact NE; tauto). tauto.
Qed.

(** what scan returns is decided by the first usable element that meets a box *)
Lemma scan_spec els : Forall (fun s => s <> []) els ->
  match scan d meets box1 box2 els with
  | None => forall s, In s els -> usable d box1 box2 s -> meets s box1 = false /\ meets s box2 = false
  | Some o => exists pre s post, els = pre ++ s :: post /\ usable d box1 box2 s /\
      (if o then meets s box1 = false /\ meets s box2 = true else meets s box1 = true) /\
      forall s', In s' pre -> usable d box1 box2 s' -> meets s' box1 = false /\ meets s' box2 = false
  end.
Proof.
  induction els as [|s els IH]; intros F.
  - cbn. intros s [].
  - inversion F as [|? ? NE F']; subst. specialize (IH F'). pose proof (usable_dec s NE) as U. cbn [scan].
    assert (forall (Hs : usable d box1 box2 s -> meets s box1 = false /\ meets s box2 = false),
      match scan d meets box1 box2 els with
      | None => forall s0, In s0 (s :: els) -> usable d box1 box2 s0 -> meets s0 box1 = false /\ meets s0 box2 = false
      | Some o => exists pre s0 post, s :: els = pre ++ s0 :: post /\ usable d box1 box2 s0 /\
        (if o then meets s0 box1 = false /\ meets s0 box2 = true else meets s0 box1 = true) /\
        forall s', In s' pre -> usable d box1 box2 s' -> meets s' box1 = false /\ meets s' box2 = false
      end) as SKIP.
    { intros Hs. destruct (scan d meets box1 box2 els) as [o|].
      - destruct IH as (pre & s0 & post & -> & U0 & M & P). exists (s :: pre), s0, post. split; [reflexivity|]. split; [exact U0|]. split; [exact M|]. intros s' [<-|I]; [exact Hs|apply P, I].
      - intros s0 [<-|I]; [exact Hs|apply IH, I]. }
    destruct (do_overlap (element_lo d s) (element_hi d s) (fst box1) (snd box1) || do_overlap (element_lo d s) (element_hi d s) (fst box2) (snd box2)) eqn:O.
    + destruct (Reqb (simp_vol s) 0) eqn:D.
      * apply SKIP. intros HU. apply U in HU. destruct HU; discriminate.
      * assert (usable d box1 box2 s) as HU by (apply U; split; reflexivity).
        destruct (meets s box1) eqn:M1; [exists [], s, els; split; [reflexivity|]; split; [exact HU|]; split; [auto|intros s' []]|].
        destruct (meets s box2) eqn:M2; [exists [], s, els; split; [reflexivity|]; split; [exact HU|]; split; [auto|intros s' []]|].
        apply SKIP. intros _. split; reflexivity.
    + apply SKIP. intros HU. apply U in HU. destruct HU; discriminate.
Qed.

(** elements at a vertex, in order *)
Lemma in_vtoe faces v e : In e (vtoe faces v) <-> e < length faces /\ In v (nth e faces []).
Proof.
  unfold vtoe. rewrite in_flat_map. split.
  - intros (e0 & I & H). apply in_seq in I. apply in_map_iff in H. destruct H as (x & <- & H). apply filter_In in H. destruct H as [H E]. apply Nat.eqb_eq in E. subst. split; [lia|exact H].
  - intros [L I]. exists e. split; [apply in_seq; lia|]. apply in_map_iff. exists v. split; [reflexivity|]. apply filter_In. split; [exact I|apply Nat.eqb_refl].
Qed.
Lemma vtoe_sorted faces v : StronglySorted le (vtoe faces v).
Proof.
  unfold vtoe. generalize 0. generalize (length faces). intros n. induction n as [|n IH]; intros a; [constructor|]. cbn [seq flat_map].
  induction (filter (Nat.eqb v) (nth a faces [])) as [|x l IHl]; cbn [map app]; [apply IH|].
  constructor; [exact IHl|]. apply Forall_forall. intros y Hy. apply in_app_or in Hy. destruct Hy as [Hy|Hy].
  - apply in_map_iff in Hy. destruct Hy as (z & <- & _). lia.
  - apply in_flat_map in Hy. destruct Hy as (e & I & Hy). apply in_seq in I. apply in_map_iff in Hy. destruct Hy as (z & <- & _). lia.
Qed.
Lemma sorted_split (l pre post : list nat) x y : StronglySorted le l -> l = pre ++ x :: post -> In y l -> y < x -> In y pre.
Proof.
  intros H -> I L. apply in_app_or in I. destruct I as [I|I]; [exact I|]. exfalso.
  induction pre as [|a pre IH]; cbn in H; [|inversion H; auto].
  inversion H as [|? ? _ F]; subst. destruct I as [->|I]; [lia|]. rewrite Forall_forall in F. specialize (F y I). lia.
Qed.
Lemma map_split {A B} (f : A -> B) l pre y post : map f l = pre ++ y :: post -> exists l1 x l2, l = l1 ++ x :: l2 /\ map f l1 = pre /\ f x = y.
Proof.
  revert l. induction pre as [|a pre IH]; intros [|x l] H; cbn in H; try discriminate.
  - injection H as E _. exists [], x, l. auto.
  - injection H as E H. destruct (IH l H) as (l1 & z & l2 & -> & M & Fz). exists (x :: l1), z, l2. cbn. rewrite E, M. auto.
Qed.
Lemma sorted_pre_lt (pre post : list nat) x : StronglySorted le (pre ++ x :: post) -> forall y, In y pre -> y <= x.
Proof.
  induction pre as [|a pre IH]; [intros _ y []|]. cbn. intros H y [<-|I]; inversion H as [|? ? Hs F]; subst.
  - rewrite Forall_forall in F. apply F. apply in_or_app. right. left. reflexivity.
  - apply IH; assumption.
Qed.

Variables (points : list (list R)) (faces : list (list nat)).
Hypothesis NEf : Forall (fun c => c <> []) faces.
Let dest := destination d meets box1 box2 points faces.
Let cell e := map (fun i => nth i points []) (nth e faces []).

Lemma cells_ne v : Forall (fun s => s <> []) (map (element points faces) (vtoe faces v)).
Proof.
  apply Forall_forall. intros s Hs. apply in_map_iff in Hs. destruct Hs as (e & <- & I). apply in_vtoe in I. destruct I as [L _].
  unfold element. apply map_ne. rewrite Forall_forall in NEf. apply NEf. apply nth_In, L.
Qed.

Lemma dest_spec v :
  (dest v = Some false <-> exists e, first_hit d meets box1 box2 points faces v e /\ meets (cell e) box1 = true) /\
  (dest v = Some true <-> exists e, first_hit d meets box1 box2 points faces v e /\ meets (cell e) box1 = false) /\
  (dest v = None <-> ~ exists e, first_hit d meets box1 box2 points faces v e).
Proof.
  assert (match dest v with
     | None => ~ exists e, first_hit d meets box1 box2 points faces v e
     | Some o => exists e, first_hit d meets box1 box2 points faces v e /\ meets (cell e) box1 = negb o end) as H.
  { pose proof (scan_spec _ (cells_ne v)) as H. unfold dest, destination. destruct (scan d meets box1 box2 (map (element points faces) (vtoe faces v))) as [o|].
    - destruct H as (pre & s & post & E & U & M & P). apply map_split in E. destruct E as (l1 & e & l2 & E & Epre & Es). exists e.
      assert (In e (vtoe faces v)) as Ie by (rewrite E; apply in_or_app; right; left; reflexivity). apply in_vtoe in Ie. destruct Ie as [Le Iv].
      change (element points faces e) with (cell e) in Es. subst s. split.
      + unfold first_hit. fold cell. fold (cell e). split; [exact Le|]. split; [exact Iv|]. split; [exact U|]. split; [destruct o; tauto|].
        intros e' L' I' U'. apply (P (element points faces e')); [|exact U']. rewrite <- Epre. apply in_map.
        apply (sorted_split _ _ _ e e' (vtoe_sorted faces v) E); [apply in_vtoe; split; [lia|exact I']|exact L'].
      + destruct o; cbn; tauto.
    - intros (e & Le & Iv & U & M & _). destruct (H (cell e)) as [M1 M2]; [|exact U|].
      + change (cell e) with (element points faces e). apply in_map. apply in_vtoe. split; assumption.
      + fold (cell e) in M. destruct M; congruence. }
  assert (forall e e', first_hit d meets box1 box2 points faces v e -> first_hit d meets box1 box2 points faces v e' -> e = e') as UQ.
  { intros e e' (L & I & U & M & P) (L' & I' & U' & M' & P'). destruct (Nat.lt_trichotomy e e') as [X|[X|X]]; [|exact X|].
    - destruct (P' e X I U). fold (cell e) in *. destruct M; congruence.
    - destruct (P e' X I' U'). fold (cell e') in *. destruct M'; congruence. }
  destruct (dest v) as [[|]|].
  - destruct H as (e & F & M). cbn in M. repeat split; try discriminate; try (intros; reflexivity).
    + intros (e' & F' & M'). rewrite (UQ e' e F' F) in M'. congruence.
    + intros _. exists e. auto.
    + intros N. exfalso. apply N. exists e. exact F.
  - destruct H as (e & F & M). cbn in M. repeat split; try discriminate; try (intros; reflexivity).
    + intros _. exists e. auto.
    + intros (e' & F' & M'). rewrite (UQ e' e F' F) in M'. congruence.
    + intros N. exfalso. apply N. exists e. exact F.
  - split; [|split]; split; try discriminate.
    + intros (e & F & _). exfalso. apply H. exists e. exact F.
    + intros (e & F & _). exfalso. apply H. exists e. exact F.
    + intros _. exact H.
    + reflexivity.
Qed.
End S.
