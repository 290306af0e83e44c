(** Invariants of the gradient limiter. *)
From Coq Require Import List ZArith Reals Lia Lra Psatz.
From Verif Require Import Model.Base Model.FastHJ Spec.Grid Proofs.ListAux Proofs.GridIndex.
Import ListNotations.

Lemma gdist_tri p q r : gdist p r <= gdist p q + gdist q r.
Proof.
  assert (A : forall a b c, adist a c <= adist a b + adist b c) by (intros a b c; unfold adist; lia).
  destruct p as [[i j] k], q as [[i' j'] k'], r as [[i2 j2] k2]. unfold gdist.
  pose proof (A i i' i2). pose proof (A j j' j2). pose proof (A k k' k2). lia.
Qed.
Lemma gdist_refl p : gdist p p = 0.
Proof. destruct p as [[i j] k]. unfold gdist, adist. lia. Qed.
Lemma gdist_sym p q : gdist p q = gdist q p.
Proof. destruct p as [[i j] k], q as [[i' j'] k']. unfold gdist, adist. lia. Qed.

Fixpoint iterR (n : nat) (h : R -> R) (x : R) : R := match n with O => x | S k => h (iterR k h x) end.

Lemma findIndices_from_spec A v pos0 a :
  In a (findIndices_from pos0 A v) <-> pos0 <= a < pos0 + length A /\ nth (a - pos0) A (v + 1)%Z = v.
Proof.
  revert pos0; induction A as [|x t IH]; intros pos0; cbn [findIndices_from length].
  - split; [intros []|lia].
  - assert (E : In a (findIndices_from (S pos0) t v) <->
                S pos0 <= a < pos0 + S (length t) /\ nth (a - S pos0) t (v + 1)%Z = v).
    { rewrite IH. replace (pos0 + S (length t)) with (S pos0 + length t) by lia. reflexivity. }
    assert (Cs : a = pos0 \/ a - pos0 = S (a - S pos0) \/ a < pos0) by lia.
    destruct (Z.eqb_spec x v) as [->|Hne]; cbn [In].
    + rewrite E. destruct Cs as [->|[C|C]].
      * rewrite Nat.sub_diag. cbn [nth]. split; [lia|auto].
      * rewrite C. cbn [nth]. split.
        -- intros [H|H]; [lia|]. split; [lia|tauto].
        -- intros [H1 H2]. right. split; [lia|exact H2].
      * split; lia.
    + rewrite E. destruct Cs as [->|[C|C]].
      * rewrite Nat.sub_diag. cbn [nth]. split; [lia|]. intros [_ H]. congruence.
      * rewrite C. cbn [nth]. split; intros [H1 H2]; (split; [lia|exact H2]).
      * split; lia.
Qed.

Lemma findIndices_spec A v a : In a (findIndices A v) <-> a < length A /\ nth a A 0%Z = v.
Proof.
  unfold findIndices. rewrite findIndices_from_spec, Nat.sub_0_r. split.
  - intros [H1 H2]. split; [lia|]. rewrite (nth_indep A 0%Z (v + 1)%Z) by lia. exact H2.
  - intros [H1 H2]. split; [lia|]. rewrite (nth_indep A (v + 1)%Z 0%Z) by lia. exact H2.
Qed.

Section L.
Variable rnd : R -> R.
Variable F : R -> Prop.
Hypothesis Hr : is_rounding rnd F.
Variables d0 d1 d2 : nat.
Hypothesis Hdim : (Z.of_nat d0 * Z.of_nat d1 * Z.of_nat d2 <= 2 ^ 31)%Z.
Variables g ftol : R.
Hypothesis Hg : (0 <= g)%R.
Hypothesis Htol : (0 <= ftol)%R.

Let N := (d0 * d1 * d2)%nat.
Notation fv s u := (nth u (fld s) 0%R).

Definition T (x : R) : R := rnd (x + g).
Definition S2 (x : R) : R := rnd (T x + ftol).

Definition viol (f : list R) (v u : nat) : Prop :=
  (nth u f 0 < nth v f 0)%R /\ (S2 (nth u f 0) < nth v f 0)%R.

Definition edge (u v : nat) : Prop :=
  exists p q, in_grid d0 d1 d2 p /\ in_grid d0 d1 d2 q /\ adjacent p q /\ pos d0 d1 p = u /\ pos d0 d1 q = v.

Definition WF (s : lstate) : Prop :=
  length (fld s) = N /\ length (act s) = N /\ Forall F (fld s).

Lemma rmono x y : (x <= y)%R -> (rnd x <= rnd y)%R.
Proof. apply Hr. Qed.
Lemma rF x : F (rnd x).
Proof. apply Hr. Qed.
Lemma rid x : F x -> rnd x = x.
Proof. apply Hr. Qed.

Lemma T_F x : F (T x). Proof. apply rF. Qed.
Lemma S2_F x : F (S2 x). Proof. apply rF. Qed.
Lemma T_ge x : F x -> (x <= T x)%R.
Proof. intros H. unfold T. rewrite <- (rid x H) at 1. apply rmono. lra. Qed.
Lemma S2_ge_T x : (T x <= S2 x)%R.
Proof. unfold S2. rewrite <- (rid (T x) (T_F x)) at 1. apply rmono. lra. Qed.
Lemma S2_ge x : F x -> (x <= S2 x)%R.
Proof. intros H. eapply Rle_trans; [apply T_ge; exact H|apply S2_ge_T]. Qed.
Lemma T_mono x y : (x <= y)%R -> (T x <= T y)%R.
Proof. intros H. apply rmono. lra. Qed.
Lemma S2_mono x y : (x <= y)%R -> (S2 x <= S2 y)%R.
Proof. intros H. apply rmono. pose proof (T_mono x y H). lra. Qed.

Lemma nth_F (l : list R) u : Forall F l -> F (nth u l 0%R).
Proof.
  intros H. destruct (Nat.lt_ge_cases u (length l)) as [Hu|Hu].
  - rewrite Forall_forall in H. apply H. apply nth_In. exact Hu.
  - rewrite nth_overflow by exact Hu. apply Hr.
Qed.

(** one update of the limiter: value at [v] lowered because of its neighbour [u] *)
Definition upd_state (iter : Z) (s : lstate) (v u : nat) : lstate :=
  mkL (upd (fld s) v (T (fv s u))) (upd (act s) v iter).

Lemma upd_state_WF iter s v u : WF s -> WF (upd_state iter s v u).
Proof.
  intros (H1 & H2 & H3). unfold WF, upd_state; cbn [fld act]. rewrite !upd_length.
  split; [exact H1|]. split; [exact H2|]. apply Forall_upd; [exact H3|apply T_F].
Qed.

Lemma relax_cases iter s n1 n2 :
  WF s -> n1 < N -> n2 < N ->
  (relax rnd g ftol iter s (Z.of_nat n1) (Z.of_nat n2) = Some s /\
   ~ viol (fld s) n1 n2 /\ ~ viol (fld s) n2 n1) \/
  (n1 <> n2 /\ viol (fld s) n1 n2 /\
   relax rnd g ftol iter s (Z.of_nat n1) (Z.of_nat n2) = Some (upd_state iter s n1 n2)) \/
  (n1 <> n2 /\ viol (fld s) n2 n1 /\
   relax rnd g ftol iter s (Z.of_nat n1) (Z.of_nat n2) = Some (upd_state iter s n2 n1)).
Proof.
  intros (L1 & L2 & HF) H1 H2. unfold relax.
  rewrite (aget_nat (fld s) n1 0%R), (aget_nat (fld s) n2 0%R) by lia. cbn [obind].
  unfold Rgtb. fold (T (fv s n1)). fold (T (fv s n2)). fold (S2 (fv s n1)). fold (S2 (fv s n2)).
  unfold viol.
  destruct (Rltb (fv s n2) (fv s n1)) eqn:E.
  - apply Rltb_true in E.
    assert (n1 <> n2) by (intros ->; lra).
    destruct (Rltb (S2 (fv s n2)) (fv s n1)) eqn:E2.
    + apply Rltb_true in E2. right; left. rewrite !aset_nat by lia. cbn [obind]. auto.
    + apply Rltb_false in E2. left. split; [reflexivity|]. lra.
  - apply Rltb_false in E.
    destruct (Rltb (S2 (fv s n1)) (fv s n2)) eqn:E2.
    + apply Rltb_true in E2. pose proof (S2_ge (fv s n1) (nth_F _ n1 HF)).
      right; right. rewrite !aset_nat by lia. cbn [obind].
      split; [intros ->; lra|]. split; [lra|reflexivity].
    + apply Rltb_false in E2. left. split; [reflexivity|]. lra.
Qed.

(** [steps n s s']: n updates, each along a grid edge that violates the growth limit *)
Inductive steps : nat -> lstate -> lstate -> Prop :=
| steps_O s : steps 0 s s
| steps_S n s iter v u s' :
    WF s -> edge u v -> viol (fld s) v u -> steps n (upd_state iter s v u) s' -> steps (S n) s s'.

Lemma steps_trans n m s s' s'' : steps n s s' -> steps m s' s'' -> steps (n + m) s s''.
Proof.
  induction 1 as [s|n s iter v u s' Hw He Hv Hs IH]; intros H; [exact H|].
  cbn [Nat.add]. eapply steps_S; eauto.
Qed.

Lemma steps_WF n s s' : steps n s s' -> WF s -> WF s'.
Proof. induction 1 as [s|n s iter v u s' Hw He Hv Hs IH]; intros H; auto. apply IH. apply upd_state_WF. exact H. Qed.

Lemma edge_sym u v : edge u v -> edge v u.
Proof.
  intros (p & q & Hp & Hq & Ha & E1 & E2). exists q, p. repeat split; auto.
  destruct p as [[i j] k], q as [[i' j'] k']. unfold adjacent, gdist, adist in *. lia.
Qed.
Lemma edge_lt u v : edge u v -> u < N /\ v < N.
Proof. intros (p & q & Hp & Hq & Ha & E1 & E2). subst. split; apply pos_lt; assumption. Qed.
Lemma edge_neq u v : edge u v -> u <> v.
Proof.
  intros (p & q & Hp & Hq & Ha & E1 & E2) He. subst. 
  assert (p = q) by (eapply pos_inj; eauto). subst q.
  destruct p as [[i j] k]. unfold adjacent, gdist, adist in Ha. lia.
Qed.

Definition marked (iter : Z) (s : lstate) (u : nat) : Prop := nth u (act s) 0%Z = iter.

(** mid-node invariant *)
Definition Inv (iter : Z) (a : nat) (done rem : list nat) (s : lstate) : Prop :=
  forall u v, edge u v -> viol (fld s) v u ->
  In u rem \/ In v rem \/ marked iter s u \/ marked iter s v \/
  (u = a /\ ~ In v done) \/ (v = a /\ ~ In u done).

Definition InvS (iter : Z) (rem : list nat) (s : lstate) : Prop :=
  forall u v, edge u v -> viol (fld s) v u ->
  In u rem \/ In v rem \/ marked iter s u \/ marked iter s v.

Lemma upd_marked iter s v u w : WF s -> v < N -> marked iter s w -> marked iter (upd_state iter s v u) w.
Proof.
  intros (_ & L & _) Hv H. unfold marked, upd_state in *; cbn [act].
  rewrite nth_upd by lia. destruct (Nat.eq_dec v w); auto.
Qed.
Lemma upd_marks iter s v u : WF s -> v < N -> marked iter (upd_state iter s v u) v.
Proof. intros (_ & L & _) Hv. unfold marked, upd_state; cbn [act]. apply nth_upd_eq. lia. Qed.

Lemma upd_inv iter a done rem s v u done' :
  WF s -> v < N -> (forall w, In w done -> In w done') ->
  (forall w, In w done' -> In w done \/ ((v = w \/ v = a))) ->
  Inv iter a done rem s -> Inv iter a done' rem (upd_state iter s v u).
Proof.
  intros HW Hv Hd Hd' HI x y Hxy Hviol.
  destruct (Nat.eq_dec x v) as [->|Hx]; [right; right; left; apply upd_marks; auto|].
  destruct (Nat.eq_dec y v) as [->|Hy]; [right; right; right; left; apply upd_marks; auto|].
  assert (Hv0 : viol (fld s) y x).
  { unfold viol, upd_state in Hviol; cbn [fld] in Hviol.
    rewrite !nth_upd_neq in Hviol by congruence. exact Hviol. }
  destruct (HI x y Hxy Hv0) as [H|[H|[H|[H|[[H1 H2]|[H1 H2]]]]]]; auto.
  - right; right; left. apply upd_marked; auto.
  - right; right; right; left. apply upd_marked; auto.
  - right; right; right; right; left. split; [exact H1|].
    intros Hin. destruct (Hd' _ Hin) as [?|[?|?]]; congruence.
  - right; right; right; right; right. split; [exact H1|].
    intros Hin. destruct (Hd' _ Hin) as [?|[?|?]]; congruence.
Qed.

Lemma relax_step iter s a p q done rem :
  WF s -> in_grid d0 d1 d2 p -> In q (nbr_nodes d0 d1 d2 p) -> pos d0 d1 p = a ->
  Inv iter a done rem s ->
  exists n s', relax rnd g ftol iter s (Z.of_nat a) (Z.of_nat (pos d0 d1 q)) = Some s' /\
    steps n s s' /\ Inv iter a (pos d0 d1 q :: done) rem s'.
Proof.
  intros HW Hp Hq Ha HI. set (b := pos d0 d1 q).
  assert (Hqg : in_grid d0 d1 d2 q) by (eapply nbr_in_grid; eauto).
  assert (Ha' : a < N) by (subst a; apply pos_lt; auto).
  assert (Hb' : b < N) by (apply pos_lt; auto).
  assert (He : a <> b -> edge a b).
  { intros Hne. destruct (nbr_dist _ _ _ _ _ Hp Hq) as [->|Hadj]; [unfold b in Hne; congruence|].
    exists p, q. auto. }
  destruct (relax_cases iter s a b HW Ha' Hb') as [(Hs & V1 & V2)|[(Hne & V & Hs)|(Hne & V & Hs)]].
  - exists 0, s. split; [exact Hs|]. split; [constructor|].
    intros u v Huv Hviol. destruct (HI u v Huv Hviol) as [H|[H|[H|[H|[[H1 H2]|[H1 H2]]]]]]; auto.
    + right; right; right; right; left. split; [exact H1|]. intros [E|E]; [subst; contradiction|auto].
    + right; right; right; right; right. split; [exact H1|]. intros [E|E]; [subst; contradiction|auto].
  - exists 1, (upd_state iter s a b). split; [exact Hs|]. split.
    + eapply steps_S; [exact HW|apply edge_sym; apply He; exact Hne|exact V|constructor].
    + apply upd_inv with (done := done); try assumption; [intros w Hw; right; exact Hw|intros w [E|E]; auto].
  - exists 1, (upd_state iter s b a). split; [exact Hs|]. split.
    + eapply steps_S; [exact HW|apply He; exact Hne|exact V|constructor].
    + apply upd_inv with (done := done); try assumption; [intros w Hw; right; exact Hw|intros w [E|E]; auto].
Qed.

Lemma relax_all_step iter p a rem : in_grid d0 d1 d2 p -> pos d0 d1 p = a ->
  forall qs s done, (forall q, In q qs -> In q (nbr_nodes d0 d1 d2 p)) ->
  WF s -> Inv iter a done rem s ->
  exists n s', relax_all rnd g ftol iter s (Z.of_nat a) (map (fun q => Z.of_nat (pos d0 d1 q)) qs) = Some s' /\
    steps n s s' /\ Inv iter a (rev (map (pos d0 d1) qs) ++ done) rem s'.
Proof.
  intros Hp Ha. induction qs as [|q qs IH]; intros s done Hsub HW HI.
  - exists 0, s. split; [reflexivity|]. split; [constructor|exact HI].
  - cbn [map relax_all].
    destruct (relax_step iter s a p q done rem HW Hp (Hsub q (or_introl eq_refl)) Ha HI)
      as (n1 & s1 & E1 & St1 & I1).
    rewrite E1. cbn [obind].
    destruct (IH s1 (pos d0 d1 q :: done)) as (n2 & s2 & E2 & St2 & I2).
    + intros r Hr'. apply Hsub. right; exact Hr'.
    + eapply steps_WF; eauto.
    + exact I1.
    + exists (n1 + n2), s2. split; [exact E2|]. split; [eapply steps_trans; eauto|].
      cbn [map rev]. rewrite <- app_assoc. exact I2.
Qed.

Lemma node_step iter a rem s : a < N -> WF s -> InvS iter (a :: rem) s ->
  exists n s', relax_all rnd g ftol iter s (Z.of_nat a)
                 (stencil (Z.of_nat d0) (Z.of_nat d1) (Z.of_nat d2) (Z.of_nat a)) = Some s' /\
    steps n s s' /\ InvS iter rem s'.
Proof.
  intros Ha HW HI. destruct (pos_surj _ _ _ _ Ha) as (p & Hp & Hpa).
  rewrite <- Hpa, stencil_spec by (auto; lia). rewrite Hpa.
  destruct (relax_all_step iter p a rem Hp Hpa (nbr_nodes d0 d1 d2 p) s [] (fun q H => H) HW) as (n & s' & E & St & I).
  - intros u v Huv Hviol. destruct (HI u v Huv Hviol) as [[H|H]|[[H|H]|[H|H]]]; auto.
    + right; right; right; right; left. split; [auto|intros []].
    + right; right; right; right; right. split; [auto|intros []].
  - exists n, s'. split; [exact E|]. split; [exact St|].
    intros u v Huv Hviol. destruct (I u v Huv Hviol) as [H|[H|[H|[H|[[H1 H2]|[H1 H2]]]]]]; auto.
    + exfalso. apply H2. rewrite app_nil_r, <- in_rev. apply in_map_iff.
      destruct Huv as (p' & q' & Hp' & Hq' & Hadj & E1 & E2).
      assert (p' = p) by (eapply pos_inj; eauto; congruence). subst p'.
      exists q'. split; [exact E2|]. eapply adjacent_nbr; eauto.
    + exfalso. apply H2. rewrite app_nil_r, <- in_rev. apply in_map_iff.
      destruct (edge_sym _ _ Huv) as (p' & q' & Hp' & Hq' & Hadj & E1 & E2).
      assert (p' = p) by (eapply pos_inj; eauto; congruence). subst p'.
      exists q'. split; [exact E2|]. eapply adjacent_nbr; eauto.
Qed.

Lemma sweep_step iter : forall aidx s, (forall a, In a aidx -> a < N) -> WF s -> InvS iter aidx s ->
  exists n s', sweep rnd (Z.of_nat d0) (Z.of_nat d1) (Z.of_nat d2) g ftol iter s aidx = Some s' /\
    steps n s s' /\ InvS iter [] s'.
Proof.
  induction aidx as [|a t IH]; intros s Hlt HW HI.
  - exists 0, s. split; [reflexivity|]. split; [constructor|exact HI].
  - cbn [sweep]. destruct (node_step iter a t s (Hlt a (or_introl eq_refl)) HW HI) as (n1 & s1 & E1 & St1 & I1).
    rewrite E1. cbn [obind].
    destruct (IH s1) as (n2 & s2 & E2 & St2 & I2); [intros; apply Hlt; right; auto|eapply steps_WF; eauto|exact I1|].
    exists (n1 + n2), s2. split; [exact E2|]. split; [eapply steps_trans; eauto|exact I2].
Qed.

Lemma steps_zero s s' : steps 0 s s' -> s' = s.
Proof. inversion 1; reflexivity. Qed.


Definition head_inv (iter : Z) (s : lstate) : Prop :=
  forall u v, edge u v -> viol (fld s) v u -> marked (iter - 1) s u \/ marked (iter - 1) s v.

Lemma loop_spec : forall fuel iter s, WF s -> head_inv iter s ->
  exists n s' b, hj_loop rnd fuel (Z.of_nat d0) (Z.of_nat d1) (Z.of_nat d2) g ftol iter s = Some (s', b) /\
    steps n s s' /\ (b = true -> forall u v, edge u v -> ~ viol (fld s') v u) /\
    (b = false -> (forall u, u < N -> (nth u (act s) 0 <= iter - 1)%Z) -> fuel <= n + 1).
Proof.
  induction fuel as [|fuel IH]; intros iter s HW HI.
  - exists 0, s, false. split; [reflexivity|]. split; [constructor|]. split; [discriminate|lia].
  - cbn [hj_loop].
    remember (findIndices (act s) (iter - 1)) as aidx eqn:Haidx.
    destruct aidx as [|a t].
    + exists 0, s, true. split; [reflexivity|]. split; [constructor|]. split; [|discriminate].
      intros _ u v Huv Hv. destruct (edge_lt _ _ Huv) as [Lu Lv]. destruct HW as (_ & L & _).
      destruct (HI u v Huv Hv) as [M|M].
      * assert (In u (findIndices (act s) (iter - 1))) by (apply findIndices_spec; split; [lia|exact M]).
        rewrite <- Haidx in H. destruct H.
      * assert (In v (findIndices (act s) (iter - 1))) by (apply findIndices_spec; split; [lia|exact M]).
        rewrite <- Haidx in H. destruct H.
    + rewrite Haidx.
      assert (L : length (act s) = N) by apply HW.
      destruct (sweep_step iter (findIndices (act s) (iter - 1)) s) as (n1 & s1 & E1 & St1 & I1).
      * intros b Hb. apply findIndices_spec in Hb. lia.
      * exact HW.
      * intros u v Huv Hv. destruct (edge_lt _ _ Huv) as [Lu Lv].
        destruct (HI u v Huv Hv) as [M|M].
        -- left. apply findIndices_spec. split; [lia|exact M].
        -- right; left. apply findIndices_spec. split; [lia|exact M].
      * rewrite E1. cbn [obind].
        destruct (IH (iter + 1)%Z s1) as (n2 & s2 & b & E2 & St2 & B1 & B2).
        -- eapply steps_WF; eauto.
        -- intros u v Huv Hv. replace (iter + 1 - 1)%Z with iter by lia.
           destruct (I1 u v Huv Hv) as [[]|[[]|M]]. exact M.
        -- exists (n1 + n2), s2, b. split; [exact E2|]. split; [eapply steps_trans; eauto|].
           split; [exact B1|]. intros Hb Hact.
           destruct n1 as [|n1].
           ++ apply steps_zero in St1. subst s1.
              destruct fuel as [|fuel']; [lia|].
              exfalso. cbn [hj_loop] in E2.
              assert (Hnil : findIndices (act s) (iter + 1 - 1) = []).
              { destruct (findIndices (act s) (iter + 1 - 1)) as [|c l] eqn:Hc; [reflexivity|exfalso].
                assert (Hin : In c (findIndices (act s) (iter + 1 - 1))) by (rewrite Hc; left; reflexivity).
                apply findIndices_spec in Hin. specialize (Hact c). lia. }
              rewrite Hnil in E2. congruence.
           ++ assert (Hle : fuel <= n2 + 1); [|lia]. apply B2; [exact Hb|].
              intros u Hu. replace (iter + 1 - 1)%Z with iter by lia.
              (* marks written during the sweep equal iter *)
              revert E1. clear - Hact Hu L HW Hdim Hg Htol Hr.
              intros E1.
              assert (G : forall aidx s s1, (forall u, u < N -> (nth u (act s) 0 <= iter)%Z) ->
                 length (act s) = N ->
                 sweep rnd (Z.of_nat d0) (Z.of_nat d1) (Z.of_nat d2) g ftol iter s aidx = Some s1 ->
                 forall u, u < N -> (nth u (act s1) 0 <= iter)%Z).
              { assert (Rx : forall s n1 n2 s1, relax rnd g ftol iter s n1 n2 = Some s1 ->
                   length (act s) = N -> (forall u, u < N -> (nth u (act s) 0 <= iter)%Z) ->
                   length (act s1) = N /\ (forall u, u < N -> (nth u (act s1) 0 <= iter)%Z)).
                { intros s0 m1 m2 s1' E Ls Hs. unfold relax in E.
                  destruct (aget (fld s0) m1); cbn [obind] in E; [|discriminate].
                  destruct (aget (fld s0) m2); cbn [obind] in E; [|discriminate].
                  assert (Aset : forall z l', aset_at (act s0) z iter = Some l' ->
                     length l' = N /\ forall u, u < N -> (nth u l' 0 <= iter)%Z).
                  { intros z l' Hz. unfold aset_at in Hz. destruct (z <? 0)%Z; [discriminate|].
                    destruct (Z.to_nat z <? length (act s0)) eqn:Hl; [|discriminate].
                    apply Nat.ltb_lt in Hl. injection Hz as <-. rewrite upd_length. split; [exact Ls|].
                    intros w Hw. rewrite nth_upd by exact Hl. destruct (Nat.eq_dec _ w); [lia|auto]. }
                  destruct (Rgtb r r0); cbn [obind] in E;
                  match type of E with (if ?c then _ else _) = _ => destruct c end;
                  try (injection E as <-; split; assumption).
                  - destruct (aset_at (fld s0) m1 _); cbn [obind] in E; [|discriminate].
                    destruct (aset_at (act s0) m1 iter) eqn:Ea; cbn [obind] in E; [|discriminate].
                    injection E as <-. cbn [act]. eapply Aset; eauto.
                  - destruct (aset_at (fld s0) m2 _); cbn [obind] in E; [|discriminate].
                    destruct (aset_at (act s0) m2 iter) eqn:Ea; cbn [obind] in E; [|discriminate].
                    injection E as <-. cbn [act]. eapply Aset; eauto. }
                assert (Rxa : forall l s n1 s1, relax_all rnd g ftol iter s n1 l = Some s1 ->
                   length (act s) = N -> (forall u, u < N -> (nth u (act s) 0 <= iter)%Z) ->
                   length (act s1) = N /\ (forall u, u < N -> (nth u (act s1) 0 <= iter)%Z)).
                { induction l as [|x l IHl]; intros s0 m1 s1' E Ls Hs; cbn [relax_all] in E.
                  - injection E as <-. auto.
                  - destruct (relax rnd g ftol iter s0 m1 x) as [s2'|] eqn:Ex; cbn [obind] in E; [|discriminate].
                    destruct (Rx _ _ _ _ Ex Ls Hs) as [L2 H2]. eapply IHl; eauto. }
                induction aidx as [|x l IHl]; intros s0 s1' Hs Ls E; cbn [sweep] in E.
                - injection E as <-. exact Hs.
                - match type of E with obind ?c _ = _ => destruct c as [s2'|] eqn:Ex end; cbn [obind] in E; [|discriminate].
                  destruct (Rxa _ _ _ _ Ex Ls Hs) as [L2 H2]. eapply IHl; eauto. }
              eapply G; eauto. intros w Hw. specialize (Hact w Hw). lia.
Qed.

(** ---- consequences of [steps] ---- *)

Lemma step_value s v u x : WF s -> edge u v ->
  nth x (fld (upd_state 0 s v u)) 0%R = if Nat.eq_dec v x then T (fv s u) else fv s x.
Proof. intros (L & _) He. destruct (edge_lt _ _ He). unfold upd_state; cbn [fld]. apply nth_upd. lia. Qed.

Lemma steps_decrease n s s' : steps n s s' -> forall x, (nth x (fld s') 0 <= nth x (fld s) 0)%R.
Proof.
  induction 1 as [s|n s iter v u s' Hw He Hv Hs IH]; intros x; [lra|].
  eapply Rle_trans; [apply IH|].
  change (fld (upd_state iter s v u)) with (fld (upd_state 0 s v u)).
  rewrite (step_value s v u x Hw He). destruct (Nat.eq_dec v x) as [<-|]; [|lra].
  destruct Hv as [_ Hv]. pose proof (S2_ge_T (fv s u)). lra.
Qed.

Lemma steps_lower m n s s' : steps n s s' ->
  (forall x, x < N -> (m <= nth x (fld s) 0)%R) -> forall x, x < N -> (m <= nth x (fld s') 0)%R.
Proof.
  induction 1 as [s|n s iter v u s' Hw He Hv Hs IH]; intros Hm; [exact Hm|].
  apply IH. intros x Hx.
  change (fld (upd_state iter s v u)) with (fld (upd_state 0 s v u)).
  rewrite (step_value s v u x Hw He). destruct (Nat.eq_dec v x) as [<-|]; [|auto].
  destruct (edge_lt _ _ He) as [Hu _]. specialize (Hm u Hu).
  pose proof (T_ge (fv s u) (nth_F _ u (proj2 (proj2 Hw)))). lra.
Qed.

(** every value is justified by an initial value carried along a path *)
Lemma iter_T_mono_n a b x : F x -> a <= b -> (iterR a T x <= iterR b T x)%R.
Proof.
  intros Hx H. induction H as [|b H IH]; [lra|]. eapply Rle_trans; [exact IH|]. cbn [iterR]. apply T_ge.
  destruct b; cbn [iterR]; [exact Hx|apply T_F].
Qed.

Lemma steps_justified f0 n s s' : Forall F f0 -> steps n s s' ->
  (forall q, in_grid d0 d1 d2 q -> exists p, in_grid d0 d1 d2 p /\
     (iterR (gdist p q) T (val d0 d1 f0 p) <= val d0 d1 (fld s) q)%R) ->
  (forall q, in_grid d0 d1 d2 q -> exists p, in_grid d0 d1 d2 p /\
     (iterR (gdist p q) T (val d0 d1 f0 p) <= val d0 d1 (fld s') q)%R).
Proof.
  intros HF. induction 1 as [s|n s iter v u s' Hw He Hv Hs IH]; intros HI; [exact HI|].
  apply IH. intros q Hq.
  unfold val at 2. change (fld (upd_state iter s v u)) with (fld (upd_state 0 s v u)).
  rewrite (step_value s v u _ Hw He). destruct (Nat.eq_dec v (pos d0 d1 q)) as [Hvq|Hvq].
  - destruct He as (pu & pv & Hpu & Hpv & Hadj & Eu & Ev).
    assert (pv = q) by (eapply pos_inj; eauto; congruence). subst pv.
    destruct (HI pu Hpu) as (p & Hp & Hle). exists p. split; [exact Hp|].
    eapply Rle_trans; [apply (iter_T_mono_n _ (S (gdist p pu)))|].
    + unfold val. apply nth_F. exact HF.
    + pose proof (gdist_tri p pu q). unfold adjacent in Hadj. lia.
    + cbn [iterR]. apply T_mono. unfold val in Hle at 2. rewrite Eu in Hle. exact Hle.
  - apply HI. exact Hq.
Qed.

(** upper bound at convergence *)
Lemma path_step p q : in_grid d0 d1 d2 p -> in_grid d0 d1 d2 q -> p <> q ->
  exists r, in_grid d0 d1 d2 r /\ adjacent r q /\ gdist p q = S (gdist p r).
Proof.
  destruct p as [[i j] k], q as [[i' j'] k']. intros (Hi & Hj & Hk) (Hi' & Hj' & Hk') Hne.
  destruct (Nat.lt_trichotomy i i') as [C|[C|C]].
  - exists (i' - 1, j', k'). unfold in_grid, adjacent, gdist, adist. lia.
  - destruct (Nat.lt_trichotomy j j') as [D|[D|D]].
    + exists (i', j' - 1, k'). unfold in_grid, adjacent, gdist, adist. lia.
    + destruct (Nat.lt_trichotomy k k') as [E|[E|E]].
      * exists (i', j', k' - 1). unfold in_grid, adjacent, gdist, adist. lia.
      * subst. congruence.
      * exists (i', j', k' + 1). unfold in_grid, adjacent, gdist, adist. lia.
    + exists (i', j' + 1, k'). unfold in_grid, adjacent, gdist, adist. lia.
  - exists (i' + 1, j', k'). unfold in_grid, adjacent, gdist, adist. lia.
Qed.

Lemma conv_upper f : Forall F f -> (forall u v, edge u v -> ~ viol f v u) ->
  forall n p q, in_grid d0 d1 d2 p -> in_grid d0 d1 d2 q -> gdist p q = n ->
  (val d0 d1 f q <= iterR n S2 (val d0 d1 f p))%R.
Proof.
  intros HF Hc. induction n as [|n IH]; intros p q Hp Hq Hd.
  - assert (p = q).
    { destruct p as [[i j] k], q as [[i' j'] k']. unfold gdist, adist in Hd.
      assert (i = i' /\ j = j' /\ k = k') as (-> & -> & ->) by lia. reflexivity. }
    subst. cbn [iterR]. lra.
  - destruct (path_step p q Hp Hq) as (r & Hrg & Hadj & E).
    { intros ->. rewrite gdist_refl in Hd. lia. }
    specialize (IH p r Hp Hrg ltac:(lia)). cbn [iterR].
    apply Rle_trans with (S2 (val d0 d1 f r)); [|apply S2_mono; exact IH].
    assert (Hedge : edge (pos d0 d1 r) (pos d0 d1 q)) by (exists r, q; auto).
    specialize (Hc _ _ Hedge). unfold viol in Hc.
    pose proof (S2_ge (val d0 d1 f r) (nth_F f _ HF)) as HS.
    unfold val in *. lra.
Qed.

(** graded input: nothing happens *)
Lemma steps_none n s s' : steps n s s' -> (forall u v, edge u v -> ~ viol (fld s) v u) -> s' = s.
Proof. destruct 1 as [s|n s iter v u s' Hw He Hv Hs]; intros H; [reflexivity|]. exfalso. eapply H; eauto. Qed.

End L.
