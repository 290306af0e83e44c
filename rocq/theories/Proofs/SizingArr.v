(** Facts about array flattening, padding and the elementwise steps of the size function. *)
From Coq Require Import List ZArith Reals Lia Lra Psatz Bool.
From Verif Require Import Model.Base Model.FastHJ Model.Sizing Spec.Grid Proofs.ListAux.
Import ListNotations.

Lemma flat_map_length_const {A B} (f : A -> list B) n l :
  (forall x, In x l -> length (f x) = n) -> length (flat_map f l) = length l * n.
Proof.
  induction l as [|x t IH]; intros H; [reflexivity|]. cbn [flat_map length].
  rewrite app_length, (H x (or_introl eq_refl)), IH by (intros y Hy; apply H; right; exact Hy). lia.
Qed.

Lemma nth_flat_map_seq {B} (f : nat -> list B) n d : forall m s i j,
  (forall x, length (f x) = n) -> i < n -> j < m ->
  nth (i + n * j) (flat_map f (seq s m)) d = nth i (f (s + j)) d.
Proof.
  induction m as [|m IH]; intros s i j Hf Hi Hj; [lia|]. cbn [seq flat_map].
  destruct j as [|j].
  - rewrite Nat.mul_0_r, Nat.add_0_r, Nat.add_0_r. apply app_nth1. rewrite Hf. exact Hi.
  - rewrite app_nth2 by (rewrite Hf; nia). rewrite Hf.
    replace (i + n * S j - n) with (i + n * j) by nia.
    rewrite IH by (auto; lia). f_equal. f_equal. lia.
Qed.

Lemma triples_length a b c : length (triples a b c) = a * b * c.
Proof.
  unfold triples. rewrite (flat_map_length_const _ (b * a)).
  - rewrite seq_length. nia.
  - intros k _. rewrite (flat_map_length_const _ a).
    + rewrite seq_length. reflexivity.
    + intros j _. rewrite map_length, seq_length. reflexivity.
Qed.

Lemma nth_triples a b c d i j k : i < a -> j < b -> k < c ->
  nth (i + a * (j + b * k)) (triples a b c) d = (i, j, k).
Proof.
  intros Hi Hj Hk. unfold triples.
  replace (i + a * (j + b * k)) with ((i + a * j) + (a * b) * k) by nia.
  rewrite (nth_flat_map_seq _ (a * b)); [|intros x; rewrite (flat_map_length_const _ a); [rewrite seq_length; nia|intros; rewrite map_length, seq_length; reflexivity]|nia|exact Hk].
  cbn [Nat.add].
  rewrite (nth_flat_map_seq _ a); [|intros x; rewrite map_length, seq_length; reflexivity|exact Hi|exact Hj].
  cbn [Nat.add].
  set (h := fun i0 : nat => (i0, j, k)).
  rewrite (nth_indep _ d (h 0)) by (rewrite map_length, seq_length; exact Hi).
  rewrite map_nth, seq_nth by exact Hi. reflexivity.
Qed.

Lemma in_triples a b c i j k : In (i, j, k) (triples a b c) <-> i < a /\ j < b /\ k < c.
Proof.
  unfold triples. split.
  - intros H. apply in_flat_map in H. destruct H as (k' & Hk & H). apply in_flat_map in H.
    destruct H as (j' & Hj & H). apply in_map_iff in H. destruct H as (i' & E & Hi).
    injection E as -> -> ->. apply in_seq in Hk, Hj, Hi. lia.
  - intros (Hi & Hj & Hk). apply in_flat_map. exists k. split; [apply in_seq; lia|].
    apply in_flat_map. exists j. split; [apply in_seq; lia|]. apply in_map_iff. exists i. split; [reflexivity|apply in_seq; lia].
Qed.

Lemma flattenF_length a : length (flattenF a) = n0 a * n1 a * n2 a.
Proof. unfold flattenF. rewrite map_length. apply triples_length. Qed.

Definition inr (a : garr) (i j k : nat) : Prop := i < n0 a /\ j < n1 a /\ k < n2 a.

Lemma nth_flattenF a i j k d : inr a i j k -> nth (i + n0 a * (j + n1 a * k)) (flattenF a) d = av a i j k.
Proof.
  intros (Hi & Hj & Hk). unfold flattenF.
  set (h := fun p : nat * nat * nat => let '(i, j, k) := p in av a i j k).
  rewrite (nth_indep _ d (h (0, 0, 0))).
  - rewrite map_nth, nth_triples by assumption. reflexivity.
  - rewrite map_length, triples_length.
    assert (j + n1 a * k < n1 a * n2 a) by nia. nia.
Qed.

Lemma in_flattenF a x : In x (flattenF a) <-> exists i j k, inr a i j k /\ av a i j k = x.
Proof.
  unfold flattenF. rewrite in_map_iff. split.
  - intros ([[i j] k] & E & H). apply in_triples in H. exists i, j, k. auto.
  - intros (i & j & k & H & E). exists (i, j, k). split; [exact E|apply in_triples; exact H].
Qed.

Definition shape_eq (a b : garr) : Prop := adim a = adim b /\ n0 a = n0 b /\ n1 a = n1 b /\ n2 a = n2 b.
Definition positive_shape (a : garr) : Prop := 0 < n0 a /\ 0 < n1 a /\ 0 < n2 a.

Lemma amax_ge a i j k : inr a i j k -> (av a i j k <= amax a)%R.
Proof. intros H. apply max_list_ge. apply in_flattenF. eauto. Qed.
Lemma amin_le a i j k : inr a i j k -> (amin a <= av a i j k)%R.
Proof. intros H. apply min_list_le. apply in_flattenF. eauto. Qed.
Lemma flattenF_nonempty a : positive_shape a -> flattenF a <> [].
Proof.
  intros (H1 & H2 & H3) E. assert (length (flattenF a) = 0) by (rewrite E; reflexivity).
  rewrite flattenF_length in H. nia.
Qed.
Lemma amax_attained a : positive_shape a -> exists i j k, inr a i j k /\ av a i j k = amax a.
Proof. intros H. apply in_flattenF. apply max_list_in. apply flattenF_nonempty. exact H. Qed.
Lemma amin_attained a : positive_shape a -> exists i j k, inr a i j k /\ av a i j k = amin a.
Proof. intros H. apply in_flattenF. apply min_list_in. apply flattenF_nonempty. exact H. Qed.

(** ---- padding ---- *)
Section Pad1.
Variable st : padstyle.
Variable ext : R.
Variables b n c : nat.
Variable f : nat -> R.
Hypothesis Hn : 0 < n.

Lemma pad1_inner i : i < n -> pad1 st ext b n c f (b + i) = f i.
Proof.
  intros Hi. unfold pad1. destruct (Nat.ltb_spec (b + i) b); [lia|].
  destruct (Nat.ltb_spec (b + i) (b + n)); [|lia]. f_equal. lia.
Qed.

Lemma pad1_bounds lo hi : (forall i, i < n -> (lo <= f i <= hi)%R) -> (lo <= ext <= hi)%R ->
  forall i, i < b + n + c -> (lo <= pad1 st ext b n c f i <= hi)%R.
Proof.
  intros Hf He i Hi. unfold pad1.
  assert (C : forall x t, (lo <= x <= hi)%R -> (0 <= t <= 1)%R -> (lo <= ext + (x - ext) * t <= hi)%R)
    by (intros; nra).
  destruct (Nat.ltb_spec i b) as [Hb|Hb].
  - assert (Ht : (0 <= INR i / INR b <= 1)%R).
    { assert (0 < INR b)%R by (apply lt_0_INR; lia). pose proof (pos_INR i).
      assert (INR i <= INR b)%R by (apply le_INR; lia).
      split; [apply Rmult_le_pos; [lra|apply Rlt_le, Rinv_0_lt_compat; lra]|].
      apply Rmult_le_reg_r with (INR b); [lra|]. unfold Rdiv. rewrite Rmult_assoc, Rinv_l by lra. lra. }
    destruct st; auto.
  - destruct (Nat.ltb_spec i (b + n)) as [Hb2|Hb2]; [apply Hf; lia|].
    assert (Ht : (0 <= INR (b + n + c - 1 - i) / INR c <= 1)%R).
    { assert (0 < INR c)%R by (apply lt_0_INR; lia). pose proof (pos_INR (b + n + c - 1 - i)).
      assert (INR (b + n + c - 1 - i) <= INR c)%R by (apply le_INR; lia).
      split; [apply Rmult_le_pos; [lra|apply Rlt_le, Rinv_0_lt_compat; lra]|].
      apply Rmult_le_reg_r with (INR c); [lra|]. unfold Rdiv. rewrite Rmult_assoc, Rinv_l by lra. lra. }
    destruct st; auto; try (apply Hf; lia). apply C; [apply Hf; lia|exact Ht].
Qed.
End Pad1.

Lemma pad_it_ok st p0 p1 p2 ext a a' : pad_it st p0 p1 p2 ext a = SzOk a' ->
  adim a' = adim a /\ n0 a' = p0 + n0 a /\ n1 a' = p1 + n1 a + p1 /\ n2 a' = p2 + n2 a + p2 /\ st <> PadOther.
Proof. unfold pad_it. destruct st; intros H; try discriminate; injection H as <-; cbn; repeat split; congruence. Qed.

Lemma pad_it_inner st p0 p1 p2 ext a a' i j k : pad_it st p0 p1 p2 ext a = SzOk a' ->
  inr a i j k -> av a' (p0 + i) (p1 + j) (p2 + k) = av a i j k.
Proof.
  intros H (Hi & Hj & Hk). unfold pad_it in H.
  destruct st; try discriminate; injection H as <-; cbn [av];
  (etransitivity; [apply pad1_inner; lia|]; cbv beta; etransitivity; [apply pad1_inner; lia|]; cbv beta;
   exact (pad1_inner _ ext p0 (n0 a) 0 (fun i' => av a i' j k) ltac:(lia) i Hi)).
Qed.

Lemma pad_it_bounds st p0 p1 p2 ext a a' lo hi : positive_shape a -> pad_it st p0 p1 p2 ext a = SzOk a' ->
  (forall i j k, inr a i j k -> (lo <= av a i j k <= hi)%R) -> (lo <= ext <= hi)%R ->
  forall i j k, inr a' i j k -> (lo <= av a' i j k <= hi)%R.
Proof.
  intros (P0 & P1 & P2) H Hb He i j k (Hi & Hj & Hk). unfold pad_it in H.
  destruct st; try discriminate; injection H as <-; cbn [av n0 n1 n2] in *;
  (apply pad1_bounds; [exact P2| |exact He|lia]; intros k' Hk';
   apply pad1_bounds; [exact P1| |exact He|lia]; intros j' Hj';
   apply pad1_bounds; [exact P0| |exact He|lia]; intros i' Hi'; apply Hb; repeat split; assumption).
Qed.

(** nearest original index *)
Definition clampi (b n i : nat) : nat := Nat.min (i - b) (n - 1).
Lemma pad1_edge ext b n c f i : 0 < n -> pad1 PadEdge ext b n c f i = f (clampi b n i).
Proof.
  intros Hn. unfold pad1, clampi. destruct (Nat.ltb_spec i b); [f_equal; lia|].
  destruct (Nat.ltb_spec i (b + n)); f_equal; lia.
Qed.

Lemma pad_it_edge p0 p1 p2 ext a a' i j k : positive_shape a -> pad_it PadEdge p0 p1 p2 ext a = SzOk a' ->
  av a' i j k = av a (clampi p0 (n0 a) i) (clampi p1 (n1 a) j) (clampi p2 (n2 a) k).
Proof.
  intros (P0 & P1 & P2) H. unfold pad_it in H. injection H as <-. cbn [av].
  etransitivity; [apply pad1_edge; exact P2|]; cbv beta; etransitivity; [apply pad1_edge; exact P1|]; cbv beta.
  exact (pad1_edge ext p0 (n0 a) 0 (fun i' => av a i' (clampi p1 (n1 a) j) (clampi p2 (n2 a) k)) i P0).
Qed.
