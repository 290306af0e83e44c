(** Proofs about vertex_to_entities: the pointer table delimits the runs of the sorted pair list. *)
From Coq Require Import List ZArith Bool Arith Lia Permutation Sorted.
From Verif Require Import Model.Base Model.Mesh Proofs.MeshAux.
Import ListNotations.

Lemma ascending_ss l : ascending l -> StronglySorted le l.
Proof.
  intros H. apply Sorted_StronglySorted; [intros x y z; lia|].
  induction l as [|x l IH]; [constructor|]. destruct l as [|y l]; [repeat constructor|]. destruct H as [H1 H2].
  constructor; [apply IH, H2|constructor; exact H1].
Qed.

Definition run (u : nat) (ve : list (nat * nat)) := filter (fun x => fst x =? u) ve.

Lemma sorted_split u ve : StronglySorted le (map fst ve) -> (forall x, In x ve -> u <= fst x) ->
  ve = run u ve ++ filter (fun x => negb (fst x =? u)) ve.
Proof.
  induction ve as [|[a e] ve IH]; intros HS HB; [reflexivity|]. cbn [map fst] in HS. inversion HS as [|? ? S1 F1]; subst.
  unfold run in *. cbn [filter fst]. destruct (a =? u) eqn:E; cbn [negb].
  - cbn [app]. f_equal. apply IH; [exact S1|]. intros x Hx. apply HB. right; exact Hx.
  - apply Nat.eqb_neq in E. assert (u < a) as L by (specialize (HB (a, e) (or_introl eq_refl)); cbn in HB; lia).
    assert (forall x, In x ve -> (fst x =? u) = false) as N.
    { intros x Hx. apply Nat.eqb_neq. rewrite Forall_forall in F1. specialize (F1 (fst x) (in_map fst _ _ Hx)). lia. }
    replace (filter (fun x => fst x =? u) ve) with (@nil (nat * nat)).
    + cbn [app]. f_equal. clear -N. induction ve as [|x ve IH]; [reflexivity|]. cbn. rewrite (N x (or_introl eq_refl)). cbn.
      f_equal. apply IH. intros y Hy. apply N. right; exact Hy.
    + clear -N. induction ve as [|x ve IH]; [reflexivity|]. cbn. rewrite (N x (or_introl eq_refl)). apply IH. intros y Hy. apply N. right; exact Hy.
Qed.
Lemma sorted_filter (f : nat * nat -> bool) ve : StronglySorted le (map fst ve) -> StronglySorted le (map fst (filter f ve)).
Proof.
  induction ve as [|x ve IH]; intros H; [constructor|]. cbn in H. inversion H as [|? ? S1 F1]; subst. cbn. destruct (f x); [|apply IH, S1].
  cbn. constructor; [apply IH, S1|]. rewrite Forall_forall in *. intros y Hy. apply F1. apply in_map_iff in Hy. destruct Hy as [z [<- Hz]].
  apply filter_In in Hz. apply in_map. tauto.
Qed.
Lemma runs_concat us : StronglySorted lt us -> forall ve, StronglySorted le (map fst ve) -> (forall x, In x ve -> In (fst x) us) ->
  ve = concat (map (fun u => run u ve) us).
Proof.
  induction 1 as [|u us HU IH HF]; intros ve HS HI.
  - destruct ve as [|x ve]; [reflexivity|]. destruct (HI x (or_introl eq_refl)).
  - cbn [map concat]. rewrite (sorted_split u ve HS) at 1.
    2:{ intros x Hx. destruct (HI x Hx) as [<- | H]; [lia|]. rewrite Forall_forall in HF. apply HF in H. lia. }
    f_equal. rewrite (IH (filter (fun x => negb (fst x =? u)) ve)) at 1.
    + f_equal. apply map_ext_in. intros v Hv. unfold run. clear - HF Hv. rewrite Forall_forall in HF. apply HF in Hv.
      induction ve as [|x ve IH]; [reflexivity|]. cbn. destruct (fst x =? u) eqn:E; cbn.
      * destruct (fst x =? v) eqn:E2; [|exact IH]. apply Nat.eqb_eq in E, E2. lia.
      * destruct (fst x =? v); [f_equal|]; exact IH.
    + apply sorted_filter, HS.
    + intros x Hx. apply filter_In in Hx. destruct Hx as [Hx N]. destruct (HI x Hx) as [E | H]; [|exact H].
      rewrite <- E, Nat.eqb_refl in N. discriminate.
Qed.

(** ---- the pointer table of a list of blocks ---- *)
Fixpoint starts (pos : nat) (sizes : list nat) : list nat :=
  match sizes with [] => [pos] | s :: r => pos :: starts (pos + s) r end.
Lemma nth_starts sizes : forall pos k, k <= length sizes -> nth k (starts pos sizes) 0 = pos + list_sum (firstn k sizes).
Proof.
  induction sizes as [|s r IH]; intros pos k Hk; cbn in Hk.
  - replace k with 0 by lia. cbn. lia.
  - destruct k as [|k]; cbn; [lia|]. rewrite IH by lia. unfold list_sum. lia.
Qed.
Lemma starts_length sizes : forall pos, length (starts pos sizes) = S (length sizes).
Proof. induction sizes as [|s r IH]; intros pos; cbn; [reflexivity|]. rewrite IH. reflexivity. Qed.
Lemma slice_concat {A} (ls : list (list A)) : forall k, k < length ls ->
  slice (concat ls) (list_sum (firstn k (map (@length A) ls))) (list_sum (firstn (S k) (map (@length A) ls))) = nth k ls [].
Proof.
  unfold slice. induction ls as [|l ls IH]; intros k Hk; cbn in Hk; [lia|]. destruct k as [|k].
  - cbn [firstn map list_sum fold_right concat nth skipn]. rewrite Nat.add_0_r, Nat.sub_0_r. cbn.
    rewrite firstn_app, Nat.sub_diag, firstn_all. cbn. apply app_nil_r.
  - specialize (IH k ltac:(lia)). cbn [nth]. rewrite <- IH. cbn [map concat]. rewrite (firstn_cons (S k)), (firstn_cons k). cbn [list_sum fold_right].
    rewrite skipn_app. rewrite (skipn_all2 l) by lia. cbn [app]. fold (list_sum (firstn k (map (@length A) ls))). fold (list_sum (firstn (S k) (map (@length A) ls))).
    f_equal; [lia|]. f_equal. lia.
Qed.

Lemma changes_repeat u n : forall pos l, changes pos u (repeat u n ++ l) = changes (pos + n) u l.
Proof.
  induction n as [|n IH]; intros pos l; cbn [repeat app changes]; [rewrite Nat.add_0_r; reflexivity|].
  rewrite Nat.eqb_refl, IH. f_equal. lia.
Qed.
Lemma changes_blocks us : forall (sz : nat -> nat) pos u, StronglySorted lt (u :: us) -> (forall v, In v us -> 0 < sz v) ->
  changes pos u (concat (map (fun v => repeat v (sz v)) us)) ++ [pos + list_sum (map sz us)] = starts pos (map sz us).
Proof.
  induction us as [|v us IH]; intros sz pos u HS HP.
  - cbn. f_equal. lia.
  - cbn [map concat]. pose proof (HP v (or_introl eq_refl)) as Hv. destruct (sz v) as [|n] eqn:E; [lia|].
    inversion HS as [|? ? S1 F1]; subst. inversion F1; subst.
    cbn [repeat app changes]. destruct (v =? u) eqn:E2; [apply Nat.eqb_eq in E2; lia|].
    rewrite changes_repeat. cbn [starts app]. f_equal. cbn [list_sum fold_right].
    fold (list_sum (map sz us)). rewrite <- (IH sz (pos + S n) v S1) by (intros; apply HP; right; assumption).
    replace (S pos + n) with (pos + S n) by lia. replace (pos + (S n + list_sum (map sz us))) with (pos + S n + list_sum (map sz us)) by lia. reflexivity.
Qed.
Lemma list_sum_length_concat {A} (ls : list (list A)) : length (concat ls) = list_sum (map (@length A) ls).
Proof. induction ls as [|l ls IH]; [reflexivity|]. cbn. rewrite app_length, IH. reflexivity. Qed.
Lemma ptr_blocks us (sz : nat -> nat) : StronglySorted lt us -> us <> [] -> (forall v, In v us -> 0 < sz v) ->
  vtoe_ptr (concat (map (fun v => repeat v (sz v)) us)) = starts 0 (map sz us).
Proof.
  intros HS NE HP. destruct us as [|u us]; [congruence|]. unfold vtoe_ptr.
  pose proof (HP u (or_introl eq_refl)) as Hu. cbn [map concat]. destruct (sz u) as [|n] eqn:E; [lia|].
  cbn [repeat app starts]. f_equal. rewrite changes_repeat. rewrite <- (changes_blocks us sz (0 + S n) u HS) by (intros; apply HP; right; assumption).
  f_equal. f_equal. cbn [length]. rewrite app_length, repeat_length, list_sum_length_concat, map_map.
  rewrite (map_ext _ sz) by (intros; apply repeat_length). lia.
Qed.
Lemma map_fst_run u ve : map fst (run u ve) = repeat u (length (run u ve)).
Proof.
  induction ve as [|x ve IH]; [reflexivity|]. unfold run in *. cbn. destruct (fst x =? u) eqn:E; [|exact IH].
  apply Nat.eqb_eq in E. cbn. rewrite E. f_equal. exact IH.
Qed.

(** the k-th slot of the table holds the pairs of the k-th used vertex *)
Lemma vtoe_slot us ve : StronglySorted lt us -> StronglySorted le (map fst ve) -> (forall u, In u us <-> In u (map fst ve)) -> us <> [] ->
  length (vtoe_ptr (map fst ve)) = S (length us) /\
  forall k, k < length us ->
    slice (map snd ve) (nth k (vtoe_ptr (map fst ve)) 0) (nth (S k) (vtoe_ptr (map fst ve)) 0) = map snd (run (nth k us 0) ve).
Proof.
  intros HU HS HI NE.
  assert (forall x, In x ve -> In (fst x) us) as HX by (intros x Hx; apply HI, in_map, Hx).
  pose proof (runs_concat us HU ve HS HX) as RC.
  assert (map fst ve = concat (map (fun v => repeat v (length (run v ve))) us)) as KF.
  { rewrite RC at 1. rewrite concat_map, map_map. f_equal. apply map_ext. intros u. apply map_fst_run. }
  assert (vtoe_ptr (map fst ve) = starts 0 (map (fun v => length (run v ve)) us)) as PT.
  { rewrite KF. apply (ptr_blocks us (fun v => length (run v ve)) HU NE). intros v Hv. apply HI in Hv. apply in_map_iff in Hv. destruct Hv as [x [Ex Hx]].
    assert (In x (run v ve)) as I by (apply filter_In; split; [exact Hx|apply Nat.eqb_eq, Ex]). destruct (run v ve); [destruct I|cbn; lia]. }
  rewrite PT. split; [rewrite starts_length, map_length; reflexivity|]. intros k Hk.
  rewrite !nth_starts by (rewrite map_length; lia). rewrite !Nat.add_0_l.
  assert (map (fun v => length (run v ve)) us = map (@length nat) (map (fun u => map snd (run u ve)) us)) as SZ.
  { rewrite map_map. apply map_ext. intros u. rewrite map_length. reflexivity. }
  rewrite SZ. replace (map snd ve) with (concat (map (fun u => map snd (run u ve)) us)).
  - rewrite slice_concat by (rewrite map_length; exact Hk). rewrite (nth_map' _ _ _ [] 0) by exact Hk. reflexivity.
  - transitivity (map snd (concat (map (fun u => run u ve) us))); [rewrite concat_map, map_map; reflexivity|rewrite <- RC; reflexivity].
Qed.

(** ---- the pairs ---- *)
Lemma count_pairs_row (r : row) e v e' :
  count_occ Nat.eq_dec (map snd (run v (map (fun w => (w, e)) r))) e' = if Nat.eq_dec e e' then count_occ Nat.eq_dec r v else 0.
Proof.
  induction r as [|w r IH]; [cbn; destruct (Nat.eq_dec e e'); reflexivity|]. cbn [map]. unfold run in *. cbn [filter fst].
  destruct (w =? v) eqn:E.
  - apply Nat.eqb_eq in E. subst w. cbn [map snd count_occ]. destruct (Nat.eq_dec v v); [|congruence]. rewrite IH. destruct (Nat.eq_dec e e'); reflexivity.
  - apply Nat.eqb_neq in E. rewrite IH. cbn [count_occ]. destruct (Nat.eq_dec w v); [congruence|]. reflexivity.
Qed.
Lemma run_app u a b : run u (a ++ b) = run u a ++ run u b.
Proof. apply filter_app. Qed.
Lemma count_pairs_seq t v e' : forall l, NoDup l -> 
  count_occ Nat.eq_dec (map snd (run v (flat_map (fun e => map (fun w => (w, e)) (nth e t [])) l))) e' =
  if in_dec Nat.eq_dec e' l then count_occ Nat.eq_dec (nth e' t []) v else 0.
Proof.
  induction 1 as [|e l Hn HN IH]; [reflexivity|]. cbn [flat_map]. rewrite run_app, map_app, count_occ_app, count_pairs_row, IH.
  destruct (Nat.eq_dec e e') as [->|NE].
  - destruct (in_dec Nat.eq_dec e' l); [contradiction|]. destruct (in_dec Nat.eq_dec e' (e' :: l)) as [|Q]; [lia|]. exfalso; apply Q; left; reflexivity.
  - destruct (in_dec Nat.eq_dec e' l), (in_dec Nat.eq_dec e' (e :: l)); try lia; cbn in *; tauto.
Qed.
Lemma count_pairs t v e : count_occ Nat.eq_dec (map snd (run v (ve_pairs t))) e = count_occ Nat.eq_dec (nth e t []) v.
Proof.
  unfold ve_pairs. rewrite count_pairs_seq by apply seq_NoDup. destruct (in_dec Nat.eq_dec e (seq 0 (length t))) as [|N]; [reflexivity|].
  rewrite nth_overflow; [reflexivity|]. rewrite in_seq in N. lia.
Qed.
Lemma run_perm u a b : Permutation a b -> Permutation (run u a) (run u b).
Proof.
  induction 1 as [|x a b H IH|x y a|a b c H1 IH1 H2 IH2]; unfold run in *; cbn.
  - reflexivity.
  - destruct (fst x =? u); [constructor|]; exact IH.
  - destruct (fst x =? u), (fst y =? u); try reflexivity. apply perm_swap.
  - etransitivity; eassumption.
Qed.
Lemma ve_pairs_in t v e : In (v, e) (ve_pairs t) <-> e < length t /\ In v (nth e t []).
Proof.
  unfold ve_pairs. rewrite in_flat_map. split.
  - intros [e0 [H0 H]]. apply in_map_iff in H. destruct H as [w [E Hw]]. inversion E; subst. apply in_seq in H0. split; [lia|exact Hw].
  - intros [He Hv]. exists e. split; [apply in_seq; lia|]. apply in_map_iff. exists v. split; [reflexivity|exact Hv].
Qed.
Lemma used_pairs t v : In v (map fst (ve_pairs t)) <-> exists r, In r t /\ In v r.
Proof.
  rewrite in_map_iff. split.
  - intros [[w e] [E H]]. cbn in E; subst. apply ve_pairs_in in H. destruct H as [L I]. exists (nth e t []). split; [apply nth_In, L|exact I].
  - intros [r [Hr Hv]]. apply (In_nth _ _ []) in Hr. destruct Hr as [e [He <-]]. exists (v, e). split; [reflexivity|]. apply ve_pairs_in. tauto.
Qed.

Lemma vtoe_general t ve us vtoe ptr :
  Permutation ve (ve_pairs t) -> ascending (map fst ve) -> vtoe_result ve = (vtoe, ptr) ->
  StronglySorted lt us -> (forall v, In v us <-> exists r, In r t /\ In v r) -> us <> [] ->
  length ptr = S (length us) /\
  forall k e, k < length us -> count_occ Nat.eq_dec (slice vtoe (nth k ptr 0) (nth (S k) ptr 0)) e = count_occ Nat.eq_dec (nth e t []) (nth k us 0).
Proof.
  intros HP HA HR HU HI NE. unfold vtoe_result in HR. inversion HR; subst; clear HR.
  assert (forall u, In u us <-> In u (map fst ve)) as HI'.
  { intros u. rewrite HI, <- used_pairs. split; apply Permutation_in; [symmetry|]; apply Permutation_map, HP. }
  destruct (vtoe_slot us ve HU (ascending_ss _ HA) HI' NE) as [L S]. split; [exact L|]. intros k e Hk. rewrite (S k Hk).
  rewrite <- count_pairs. apply (proj1 (Permutation_count_occ Nat.eq_dec _ _)). apply Permutation_map, run_perm, HP.
Qed.

Lemma seq_sorted n : forall a, StronglySorted lt (seq a n).
Proof.
  induction n as [|n IH]; intros a; [constructor|]. cbn. constructor; [apply IH|]. rewrite Forall_forall. intros x Hx. apply in_seq in Hx. lia.
Qed.
(** every vertex below n used, none beyond *)
Lemma vtoe_all_used t n ve vtoe ptr :
  Permutation ve (ve_pairs t) -> ascending (map fst ve) -> vtoe_result ve = (vtoe, ptr) ->
  (forall v, v < n <-> exists r, In r t /\ In v r) -> 0 < n ->
  length ptr = S n /\
  forall v e, v < n -> count_occ Nat.eq_dec (slice vtoe (nth v ptr 0) (nth (S v) ptr 0)) e = count_occ Nat.eq_dec (nth e t []) v.
Proof.
  intros HP HA HR HI Hn.
  destruct (vtoe_general t ve (seq 0 n) vtoe ptr HP HA HR (seq_sorted n 0)) as [L S].
  - intros v. rewrite in_seq, <- HI. lia.
  - destruct n; [lia|discriminate].
  - rewrite seq_length in L. split; [exact L|]. intros v e Hv. rewrite S by (rewrite seq_length; exact Hv). rewrite seq_nth by exact Hv. reflexivity.
Qed.
(** an unused vertex below a used one: a wrong slot exists *)
Lemma vtoe_unused t ve vtoe ptr u w :
  Permutation ve (ve_pairs t) -> ascending (map fst ve) -> vtoe_result ve = (vtoe, ptr) ->
  (forall r, In r t -> ~ In u r) -> (exists r, In r t /\ In w r) -> u < w ->
  exists v e, S v < length ptr /\ In e (slice vtoe (nth v ptr 0) (nth (S v) ptr 0)) /\ ~ In v (nth e t []).
Proof.
  intros HP HA HR HN HW HL. pose (us := unique_nat (concat t)).
  assert (forall v, In v us <-> exists r, In r t /\ In v r) as HI.
  { intros v. unfold us. rewrite unique_nat_in, in_concat. split; intros [r [A B]]; exists r; tauto. }
  assert (In w us) as IW by (apply HI, HW).
  assert (us <> []) as NE by (intros E; rewrite E in IW; destruct IW).
  destruct (vtoe_general t ve us vtoe ptr HP HA HR (unique_nat_sorted _) HI NE) as [L S].
  assert (exists v, v < length us /\ ~ In v us) as [v [Lv Nv]].
  { destruct (forallb (fun v => existsb (Nat.eqb v) us) (seq 0 (length us))) eqn:E.
    - exfalso. rewrite forallb_forall in E.
      assert (incl (seq 0 (length us)) us) as IC.
      { intros v Hv. specialize (E v Hv). apply existsb_exists in E. destruct E as [x [Ix Ex]]. apply Nat.eqb_eq in Ex. subst. exact Ix. }
      assert (incl us (seq 0 (length us))) as IC2.
      { apply NoDup_length_incl; [apply seq_NoDup|rewrite seq_length; lia|exact IC]. }
      apply IC2 in IW. apply in_seq in IW. assert (In u us) as IU by (apply IC, in_seq; lia). apply HI in IU. destruct IU as [r [Ir Iu]]. exact (HN r Ir Iu).
    - assert (exists v, In v (seq 0 (length us)) /\ existsb (Nat.eqb v) us = false) as [v [Iv Ev]].
      { clear -E. induction (seq 0 (length us)) as [|x l IH]; [discriminate|]. cbn in E. apply andb_false_iff in E. destruct E as [E|E].
        - exists x. split; [left; reflexivity|exact E].
        - destruct (IH E) as [v [A B]]. exists v. split; [right; exact A|exact B]. }
      exists v. split; [apply in_seq in Iv; lia|]. intros I. assert (existsb (Nat.eqb v) us = true); [|congruence].
      apply existsb_exists. exists v. split; [exact I|apply Nat.eqb_refl]. }
  assert (In (nth v us 0) us) as IV by (apply nth_In, Lv). apply HI in IV. destruct IV as [r [Ir Iv]]. apply (In_nth _ _ []) in Ir. destruct Ir as [e [He <-]].
  exists v, e. split; [lia|]. split.
  - apply (proj2 (count_occ_In Nat.eq_dec _ _)). rewrite (S v e Lv). apply count_occ_In, Iv.
  - intros I. apply Nv, HI. exists (nth e t []). split; [apply nth_In, He|exact I].
Qed.
