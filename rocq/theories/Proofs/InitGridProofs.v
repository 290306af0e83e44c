From Coq Require Import List ZArith Reals Bool Arith Lia Lra.
From Flocq Require Import Core.
From Verif Require Import Model.Base Model.InitGrid Spec.Geom Proofs.ListAux Proofs.MeshAux.
Import ListNotations.
Local Open Scope R_scope.

(** ---- one axis ---- *)
Section Axis.
Variables lo hi h : R.
Hypothesis Hh : 0 < h.
Lemma ceil_bounds x : IZR (Zceil x) - 1 < x <= IZR (Zceil x).
Proof. split; [|apply Zceil_ub]. pose proof (Zceil_lb x). lra. Qed.
Lemma n_nodes_pos : lo < hi -> (1 <= n_nodes lo hi h)%nat.
Proof.
  intros L. unfold n_nodes. assert (0 < (hi - lo) / h) as P by (apply Rdiv_lt_0_compat; lra).
  pose proof (ceil_bounds ((hi - lo) / h)) as B. assert (0 < Zceil ((hi - lo) / h))%Z as Z by (apply lt_IZR; lra). lia.
Qed.
Lemma n_nodes_real : lo < hi -> INR (n_nodes lo hi h) - 1 < (hi - lo) / h <= INR (n_nodes lo hi h).
Proof.
  intros L. unfold n_nodes. assert (0 < (hi - lo) / h) as P by (apply Rdiv_lt_0_compat; lra).
  pose proof (ceil_bounds ((hi - lo) / h)) as B. assert (0 < Zceil ((hi - lo) / h))%Z as Z by (apply lt_IZR; lra).
  rewrite INR_IZR_INZ, Z2Nat.id by lia. exact B.
Qed.
Lemma n_nodes_none : hi <= lo -> n_nodes lo hi h = 0%nat.
Proof.
  intros L. unfold n_nodes. assert ((hi - lo) / h <= 0) as P.
  { unfold Rdiv. rewrite <- (Rmult_0_l (/ h)). apply Rmult_le_compat_r; [left; apply Rinv_0_lt_compat, Hh|lra]. }
  pose proof (Zceil_le _ _ P) as Z. rewrite (Zceil_IZR 0) in Z. lia.
Qed.
Lemma div_lt a b : a / h < b <-> a < b * h.
Proof.
  split; intros H.
  - apply (Rmult_lt_compat_r h) in H; [|exact Hh]. replace (a / h * h) with a in H by (field; lra). exact H.
  - apply (Rmult_lt_reg_r h); [exact Hh|]. replace (a / h * h) with a by (field; lra). exact H.
Qed.
Lemma div_le a b : a / h <= b <-> a <= b * h.
Proof.
  split; intros H.
  - apply (Rmult_le_compat_r h) in H; [|lra]. replace (a / h * h) with a in H by (field; lra). exact H.
  - apply (Rmult_le_reg_r h); [exact Hh|]. replace (a / h * h) with a by (field; lra). exact H.
Qed.
Lemma div_gt a b : b < a / h <-> b * h < a.
Proof.
  split; intros H.
  - apply (Rmult_lt_compat_r h) in H; [|exact Hh]. replace (a / h * h) with a in H by (field; lra). exact H.
  - apply (Rmult_lt_reg_r h); [exact Hh|]. replace (a / h * h) with a by (field; lra). exact H.
Qed.
(** all nodes are in [lo, hi) *)
Lemma node_bounds k : (k < n_nodes lo hi h)%nat -> lo <= node lo h k < hi.
Proof.
  intros L. destruct (Rlt_le_dec lo hi) as [P|P]; [|rewrite n_nodes_none in L by exact P; lia].
  destruct (n_nodes_real P) as [A _]. apply div_gt in A.
  assert (INR k <= INR (n_nodes lo hi h) - 1) as LK. { replace (INR (n_nodes lo hi h) - 1) with (INR (n_nodes lo hi h - 1)) by (rewrite minus_INR by lia; cbn; ring). apply le_INR. lia. }
  pose proof (pos_INR k) as K0. unfold node. pose proof (Rmult_le_compat_r h _ _ (Rlt_le _ _ Hh) LK). pose proof (Rmult_le_pos _ _ K0 (Rlt_le _ _ Hh)). lra.
Qed.
(** the last one is in [hi - h, hi) *)
Lemma last_bounds : lo < hi -> hi - h <= node lo h (n_nodes lo hi h - 1) < hi.
Proof.
  intros P. pose proof (n_nodes_pos P) as N1. split; [|apply node_bounds; lia].
  destruct (n_nodes_real P) as [_ B]. apply div_le in B. unfold node. rewrite minus_INR by lia. cbn [INR]. lra.
Qed.
Lemma node_gap i j : i <> j -> h <= Rabs (node lo h i - node lo h j).
Proof.
  intros N. unfold node. replace (lo + INR i * h - (lo + INR j * h)) with ((INR i - INR j) * h) by ring. rewrite Rabs_mult, (Rabs_right h) by lra.
  rewrite <- (Rmult_1_l h) at 1. apply Rmult_le_compat_r; [lra|]. rewrite !INR_IZR_INZ, <- minus_IZR, <- abs_IZR. apply IZR_le. lia.
Qed.
End Axis.
Lemma ceil_shift lo hi h : 0 < h -> lo <= hi -> n_nodes lo (hi + h) h = S (Z.to_nat (Zceil ((hi - lo) / h))).
Proof.
  intros Hh L. unfold n_nodes. replace ((hi + h - lo) / h) with ((hi - lo) / h + 1) by (field; lra).
  assert (0 <= (hi - lo) / h) as P by (apply Rmult_le_pos; [lra|left; apply Rinv_0_lt_compat, Hh]).
  assert (Zceil ((hi - lo) / h + 1) = Zceil ((hi - lo) / h) + 1)%Z as ->.
  { apply Zceil_imp. rewrite minus_IZR, plus_IZR. pose proof (ceil_bounds ((hi - lo) / h)). lra. }
  pose proof (ceil_bounds ((hi - lo) / h)) as B. assert (0 <= Zceil ((hi - lo) / h))%Z by (apply le_IZR; lra). lia.
Qed.
(** covering: unshifted and shifted nodes *)
Lemma cover_plain lo hi h x : 0 < h -> lo <= x <= hi -> exists k, (k < n_nodes lo (hi + h) h)%nat /\ Rabs (x - node lo h k) <= h / 2.
Proof.
  intros Hh [L1 L2]. set (y := (x - lo) / h). assert (0 <= y) as Y0 by (apply Rmult_le_pos; [lra|left; apply Rinv_0_lt_compat, Hh]).
  set (z := Zfloor (y + / 2)). pose proof (Zfloor_lb (y + / 2)) as B1. pose proof (Zfloor_ub (y + / 2)) as B2. fold z in B1, B2.
  assert (0 <= z)%Z as Z0 by (unfold z; apply Zfloor_lub; cbn; lra). exists (Z.to_nat z). split.
  - rewrite ceil_shift by lra. apply le_n_S. apply Z2Nat.inj_le; [exact Z0| |].
    + apply le_IZR. pose proof (ceil_bounds ((hi - lo) / h)) as B. assert (0 <= (hi - lo) / h) by (apply Rmult_le_pos; [lra|left; apply Rinv_0_lt_compat, Hh]). lra.
    + pose proof (ceil_bounds ((hi - lo) / h)) as B. assert (y <= (hi - lo) / h) as YL. { unfold y, Rdiv. apply Rmult_le_compat_r; [left; apply Rinv_0_lt_compat, Hh|lra]. }
      apply Z.lt_succ_r, lt_IZR. rewrite succ_IZR. lra.
  - unfold node. rewrite INR_IZR_INZ, Z2Nat.id by exact Z0. replace x with (lo + y * h) by (unfold y; field; lra).
    replace (lo + y * h - (lo + IZR z * h)) with ((y - IZR z) * h) by ring. rewrite Rabs_mult, (Rabs_right h) by lra.
    assert (Rabs (y - IZR z) <= / 2) as A by (apply Rabs_le; lra). apply (Rmult_le_compat_r h) in A; lra.
Qed.
Lemma cover_shifted lo hi h x : 0 < h -> lo <= x <= hi -> exists k, (k < n_nodes lo (hi + h) h)%nat /\ Rabs (x - (node lo h k + h / 2)) <= h / 2.
Proof.
  intros Hh [L1 L2]. set (y := (x - lo) / h). assert (0 <= y) as Y0 by (apply Rmult_le_pos; [lra|left; apply Rinv_0_lt_compat, Hh]).
  set (z := Zfloor y). pose proof (Zfloor_lb y) as B1. pose proof (Zfloor_ub y) as B2. fold z in B1, B2.
  assert (0 <= z)%Z as Z0 by (unfold z; apply Zfloor_lub; cbn; lra). exists (Z.to_nat z). split.
  - rewrite ceil_shift by lra. apply le_n_S. apply Z2Nat.inj_le; [exact Z0| |].
    + apply le_IZR. pose proof (ceil_bounds ((hi - lo) / h)) as B. assert (0 <= (hi - lo) / h) by (apply Rmult_le_pos; [lra|left; apply Rinv_0_lt_compat, Hh]). lra.
    + pose proof (ceil_bounds ((hi - lo) / h)) as B. assert (y <= (hi - lo) / h) as YL. { unfold y, Rdiv. apply Rmult_le_compat_r; [left; apply Rinv_0_lt_compat, Hh|lra]. }
      apply Z.lt_succ_r, lt_IZR. rewrite succ_IZR. lra.
  - unfold node. rewrite INR_IZR_INZ, Z2Nat.id by exact Z0. replace x with (lo + y * h) by (unfold y; field; lra).
    replace (lo + y * h - (lo + IZR z * h + h / 2)) with ((y - IZR z - / 2) * h) by field. rewrite Rabs_mult, (Rabs_right h) by lra.
    assert (Rabs (y - IZR z - / 2) <= / 2) as A by (apply Rabs_le; lra). apply (Rmult_le_compat_r h) in A; lra.
Qed.
Lemma cover lo hi h x i : 0 < h -> lo <= x <= hi -> exists k, (k < n_nodes lo (hi + h) h)%nat /\ Rabs (x - (node lo h k + shift h i)) <= h / 2.
Proof.
  intros Hh L. unfold shift. destruct (Nat.odd i); [apply cover_shifted; assumption|].
  destruct (cover_plain lo hi h x Hh L) as [k [A B]]. exists k. split; [exact A|]. rewrite Rplus_0_r. exact B.
Qed.

(** ---- membership ---- *)
Lemma in_staggered2 h b0 b1 q : In q (staggered2 h b0 b1) <-> exists i j, (i < n_nodes (fst b0) (snd b0 + h) h)%nat /\ (j < n_nodes (fst b1) (snd b1 + h) h)%nat /\
  q = [node (fst b0) h i; node (fst b1) h j + shift h i].
Proof.
  unfold staggered2. rewrite in_flat_map. split.
  - intros [i [Hi H]]. apply in_map_iff in H. destruct H as [j [<- Hj]]. apply in_seq in Hi. apply in_seq in Hj. exists i, j. split; [lia|]. split; [lia|reflexivity].
  - intros [i [j [Hi [Hj ->]]]]. exists i. split; [apply in_seq; lia|]. apply in_map_iff. exists j. split; [reflexivity|apply in_seq; lia].
Qed.
Lemma in_staggered3 h b0 b1 b2 q : In q (staggered3 h b0 b1 b2) <-> exists i j k, (i < n_nodes (fst b0) (snd b0 + h) h)%nat /\ (j < n_nodes (fst b1) (snd b1 + h) h)%nat /\
  (k < n_nodes (fst b2) (snd b2 + h) h)%nat /\ q = [node (fst b0) h i; node (fst b1) h j + shift h i; node (fst b2) h k + shift h i].
Proof.
  unfold staggered3. rewrite in_flat_map. split.
  - intros [i [Hi H]]. apply in_flat_map in H. destruct H as [j [Hj H]]. apply in_map_iff in H. destruct H as [k [<- Hk]]. apply in_seq in Hi. apply in_seq in Hj. apply in_seq in Hk.
    exists i, j, k. repeat split; lia.
  - intros [i [j [k [Hi [Hj [Hk ->]]]]]]. exists i. split; [apply in_seq; lia|]. apply in_flat_map. exists j. split; [apply in_seq; lia|]. apply in_map_iff. exists k. split; [reflexivity|apply in_seq; lia].
Qed.
(** ---- spacing ---- *)
Lemma edist_ge_coord p q k h : length p = length q -> 0 <= h -> h <= Rabs (nth k p 0 - nth k q 0) -> h <= edist p q.
Proof.
  intros L H0 H. unfold edist. rewrite <- (sqrt_square h H0). apply sqrt_le_1_alt. apply Rle_trans with ((nth k p 0 - nth k q 0) ^ 2).
  - rewrite <- (pow2_abs (nth k p 0 - nth k q 0)). replace (h * h) with (h ^ 2) by ring. apply pow_incr. split; assumption.
  - clear H. revert q k L. induction p as [|x p IH]; intros [|y q] k L; cbn in L; try discriminate.
    + destruct k; cbn; lra.
    + assert (forall p q, 0 <= sqdist p q) as SN. { clear. induction p as [|x p IH]; intros [|y q]; cbn [sqdist]; try lra. pose proof (pow2_ge_0 (x - y)). specialize (IH q). lra. }
      destruct k as [|k]; cbn [nth sqdist]; [specialize (SN p q); lra|]. specialize (IH q k ltac:(lia)). pose proof (pow2_ge_0 (x - y)). lra.
Qed.
Lemma spacing2 h b0 b1 p q : 0 < h -> In p (staggered2 h b0 b1) -> In q (staggered2 h b0 b1) -> p <> q -> h <= edist p q.
Proof.
  intros Hh Hp Hq N. apply in_staggered2 in Hp. destruct Hp as [i [j [_ [_ ->]]]]. apply in_staggered2 in Hq. destruct Hq as [i' [j' [_ [_ ->]]]].
  destruct (Nat.eq_dec i i') as [->|NI].
  - destruct (Nat.eq_dec j j') as [->|NJ]; [congruence|]. apply (edist_ge_coord _ _ 1%nat); [reflexivity|lra|]. cbn [nth].
    replace (node (fst b1) h j + shift h i' - (node (fst b1) h j' + shift h i')) with (node (fst b1) h j - node (fst b1) h j') by ring. apply node_gap; assumption.
  - apply (edist_ge_coord _ _ 0%nat); [reflexivity|lra|]. cbn [nth]. apply node_gap; assumption.
Qed.
Lemma spacing3 h b0 b1 b2 p q : 0 < h -> In p (staggered3 h b0 b1 b2) -> In q (staggered3 h b0 b1 b2) -> p <> q -> h <= edist p q.
Proof.
  intros Hh Hp Hq N. apply in_staggered3 in Hp. destruct Hp as [i [j [k [_ [_ [_ ->]]]]]]. apply in_staggered3 in Hq. destruct Hq as [i' [j' [k' [_ [_ [_ ->]]]]]].
  destruct (Nat.eq_dec i i') as [->|NI].
  - destruct (Nat.eq_dec j j') as [->|NJ]; [destruct (Nat.eq_dec k k') as [->|NK]; [congruence|]|].
    + apply (edist_ge_coord _ _ 2%nat); [reflexivity|lra|]. cbn [nth].
      replace (node (fst b2) h k + shift h i' - (node (fst b2) h k' + shift h i')) with (node (fst b2) h k - node (fst b2) h k') by ring. apply node_gap; assumption.
    + apply (edist_ge_coord _ _ 1%nat); [reflexivity|lra|]. cbn [nth].
      replace (node (fst b1) h j + shift h i' - (node (fst b1) h j' + shift h i')) with (node (fst b1) h j - node (fst b1) h j') by ring. apply node_gap; assumption.
  - apply (edist_ge_coord _ _ 0%nat); [reflexivity|lra|]. cbn [nth]. apply node_gap; assumption.
Qed.
Lemma node_inj lo h i j : 0 < h -> node lo h i = node lo h j -> i = j.
Proof.
  intros Hh E. destruct (Nat.eq_dec i j) as [H|N]; [exact H|exfalso]. pose proof (node_gap lo h Hh i j N) as G. rewrite E in G. rewrite Rminus_diag_eq, Rabs_R0 in G by reflexivity. lra.
Qed.
Lemma NoDup_map_inj' {A B} (f : A -> B) l : (forall x y, In x l -> In y l -> f x = f y -> x = y) -> NoDup l -> NoDup (map f l).
Proof.
  intros HI ND. induction ND as [|x l NI ND IH]; [apply NoDup_nil|]. cbn [map]. apply NoDup_cons.
  - intros H. apply in_map_iff in H. destruct H as [y [E Hy]]. apply HI in E; [subst; contradiction|right; exact Hy|left; reflexivity].
  - apply IH. intros a b Ha Hb. apply HI; right; assumption.
Qed.
Lemma NoDup_flat_map' {A B} (f : A -> list B) l : NoDup l -> (forall x, In x l -> NoDup (f x)) ->
  (forall x y b, In x l -> In y l -> In b (f x) -> In b (f y) -> x = y) -> NoDup (flat_map f l).
Proof.
  intros ND. induction ND as [|x l NI ND IH]; intros H1 H2; [apply NoDup_nil|]. cbn [flat_map].
  assert (forall l1 l2 : list B, NoDup l1 -> NoDup l2 -> (forall b, In b l1 -> ~ In b l2) -> NoDup (l1 ++ l2)) as APP.
  { clear. induction l1 as [|b l1 IH]; intros l2 N1 N2 D; [exact N2|]. inversion N1; subst. cbn. apply NoDup_cons.
    - rewrite in_app_iff. intros [H|H]; [contradiction|]. exact (D b (or_introl eq_refl) H).
    - apply IH; try assumption. intros c Hc. apply D. right. exact Hc. }
  apply APP.
  - apply H1. left. reflexivity.
  - apply IH; [intros; apply H1; right; assumption|]. intros a b c Ha Hb. apply H2; right; assumption.
  - intros b Hb Hc. apply in_flat_map in Hc. destruct Hc as [y [Hy Hc]]. assert (x = y) by (apply (H2 x y b); [left; reflexivity|right; exact Hy|exact Hb|exact Hc]). subst. contradiction.
Qed.
Lemma nodup2 h b0 b1 : 0 < h -> NoDup (staggered2 h b0 b1).
Proof.
  intros Hh. apply NoDup_flat_map'; [apply seq_NoDup| |].
  - intros i _. apply NoDup_map_inj'; [|apply seq_NoDup]. intros j j' _ _ E. injection E as E. apply (node_inj (fst b1) h); [exact Hh|lra].
  - intros i i' q _ _ H1 H2. apply in_map_iff in H1. destruct H1 as [j [<- _]]. apply in_map_iff in H2. destruct H2 as [j' [E _]]. injection E as E _. symmetry. apply (node_inj (fst b0) h); assumption.
Qed.
Lemma nodup3 h b0 b1 b2 : 0 < h -> NoDup (staggered3 h b0 b1 b2).
Proof.
  intros Hh. apply NoDup_flat_map'; [apply seq_NoDup| |].
  - intros i _. apply NoDup_flat_map'; [apply seq_NoDup| |].
    + intros j _. apply NoDup_map_inj'; [|apply seq_NoDup]. intros k k' _ _ E. injection E as E. apply (node_inj (fst b2) h); [exact Hh|lra].
    + intros j j' q _ _ H1 H2. apply in_map_iff in H1. destruct H1 as [k [<- _]]. apply in_map_iff in H2. destruct H2 as [k' [E _]]. injection E as E _. symmetry. apply (node_inj (fst b1) h); [assumption|lra].
  - intros i i' q _ _ H1 H2. apply in_flat_map in H1. destruct H1 as [j [_ H1]]. apply in_flat_map in H2. destruct H2 as [j' [_ H2]].
    apply in_map_iff in H1. destruct H1 as [k [<- _]]. apply in_map_iff in H2. destruct H2 as [k' [E _]]. injection E as E _ _. symmetry. apply (node_inj (fst b0) h); assumption.
Qed.
