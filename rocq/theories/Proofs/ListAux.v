From Coq Require Import List ZArith Reals Lia Lra.
From Verif Require Import Model.Base.
Import ListNotations.

Lemma upd_length {A} (l : list A) i x : length (upd l i x) = length l.
Proof. revert i; induction l as [|h t IH]; intros [|i]; simpl; auto. Qed.

Lemma nth_upd_eq {A} (l : list A) i x d : i < length l -> nth i (upd l i x) d = x.
Proof. revert i; induction l as [|h t IH]; intros [|i]; simpl; intros H; try lia; auto. apply IH; lia. Qed.

Lemma nth_upd_neq {A} (l : list A) i j x d : i <> j -> nth j (upd l i x) d = nth j l d.
Proof. revert i j; induction l as [|h t IH]; intros [|i] [|j] H; simpl; auto; try lia. Qed.

Lemma nth_upd {A} (l : list A) i j x d : i < length l ->
  nth j (upd l i x) d = if Nat.eq_dec i j then x else nth j l d.
Proof. intros H. destruct (Nat.eq_dec i j) as [->|Hn]; [apply nth_upd_eq; auto|apply nth_upd_neq; auto]. Qed.

Lemma Forall_upd {A} (P : A -> Prop) l i x : Forall P l -> P x -> Forall P (upd l i x).
Proof. intros H Hx; revert i; induction H as [|h t Hh Ht IH]; intros [|i]; simpl; constructor; auto. Qed.

Lemma aget_nat {A} (l : list A) i d : i < length l -> aget l (Z.of_nat i) = Some (nth i l d).
Proof.
  intros H. unfold aget. destruct (Z.ltb_spec (Z.of_nat i) 0); [lia|].
  rewrite Nat2Z.id. apply nth_error_nth'. exact H.
Qed.

Lemma aset_nat {A} (l : list A) i x : i < length l -> aset_at l (Z.of_nat i) x = Some (upd l i x).
Proof.
  intros H. unfold aset_at. destruct (Z.ltb_spec (Z.of_nat i) 0); [lia|].
  rewrite Nat2Z.id. destruct (Nat.ltb_spec i (length l)); [reflexivity|lia].
Qed.

Lemma Rltb_true x y : Rltb x y = true <-> (x < y)%R.
Proof. unfold Rltb. destruct (Rlt_dec x y); split; intros; try discriminate; auto; lra. Qed.
Lemma Rltb_false x y : Rltb x y = false <-> (y <= x)%R.
Proof. unfold Rltb. destruct (Rlt_dec x y); split; intros; try discriminate; auto; lra. Qed.
Lemma Rleb_true x y : Rleb x y = true <-> (x <= y)%R.
Proof. unfold Rleb. destruct (Rle_dec x y); split; intros; try discriminate; auto; lra. Qed.
Lemma Rleb_false x y : Rleb x y = false <-> (y < x)%R.
Proof. unfold Rleb. destruct (Rle_dec x y); split; intros; try discriminate; auto; lra. Qed.
Lemma Reqb_true x y : Reqb x y = true <-> x = y.
Proof. unfold Reqb. destruct (Req_EM_T x y); split; intros; try discriminate; auto; congruence. Qed.
Lemma Reqb_false x y : Reqb x y = false <-> x <> y.
Proof. unfold Reqb. destruct (Req_EM_T x y); split; intros; try discriminate; auto; congruence. Qed.

Lemma min_list_in l : l <> [] -> In (min_list l) l.
Proof.
  induction l as [|x t IH]; [congruence|]. intros _. destruct t as [|y t]; [left; reflexivity|].
  change (In (Rmin x (min_list (y :: t))) (x :: y :: t)). unfold Rmin.
  destruct (Rle_dec x (min_list (y :: t))); [left; reflexivity|right; apply IH; congruence].
Qed.

Lemma min_list_le l x : In x l -> (min_list l <= x)%R.
Proof.
  induction l as [|y t IH]; [contradiction|]. destruct t as [|z t].
  - intros [->|[]]. simpl. lra.
  - intros H. change (Rmin y (min_list (z :: t)) <= x)%R.
    destruct H as [->|H]; [apply Rmin_l|]. eapply Rle_trans; [apply Rmin_r|auto].
Qed.

Lemma max_list_in l : l <> [] -> In (max_list l) l.
Proof.
  induction l as [|x t IH]; [congruence|]. intros _. destruct t as [|y t]; [left; reflexivity|].
  change (In (Rmax x (max_list (y :: t))) (x :: y :: t)). unfold Rmax.
  destruct (Rle_dec x (max_list (y :: t))); [right; apply IH; congruence|left; reflexivity].
Qed.

Lemma max_list_ge l x : In x l -> (x <= max_list l)%R.
Proof.
  induction l as [|y t IH]; [contradiction|]. destruct t as [|z t].
  - intros [->|[]]. simpl. lra.
  - intros H. change (x <= Rmax y (max_list (z :: t)))%R.
    destruct H as [->|H]; [apply Rmax_l|]. eapply Rle_trans; [|apply Rmax_r]. auto.
Qed.

Fixpoint rsum (l : list R) : R := match l with [] => 0%R | x :: t => (x + rsum t)%R end.

Lemma rsum_upd l i x : i < length l -> rsum (upd l i x) = (rsum l - nth i l 0 + x)%R.
Proof.
  revert i; induction l as [|h t IH]; intros [|i] H; simpl in *; try lia; [ring|].
  rewrite IH by lia. ring.
Qed.

Lemma rsum_lower l m : (forall x, In x l -> (m <= x)%R) -> (INR (length l) * m <= rsum l)%R.
Proof.
  induction l as [|h t IH]; intros H; [simpl; lra|].
  cbn [length rsum]. rewrite S_INR. specialize (IH (fun x Hx => H x (or_intror Hx))).
  specialize (H h (or_introl eq_refl)). lra.
Qed.

Lemma nth_repeat_lt {A} (x d : A) n i : i < n -> nth i (repeat x n) d = x.
Proof. revert i; induction n as [|n IH]; intros [|i] H; simpl; try lia; auto. apply IH. lia. Qed.

Lemma Rabs_def2b x a : (Rabs x <= a)%R -> (- a <= x <= a)%R.
Proof. intros H. unfold Rabs in H. destruct (Rcase_abs x); lra. Qed.
Lemma Rabs_le_iff x a : (Rabs x <= a)%R <-> (- a <= x <= a)%R.
Proof. split; [apply Rabs_def2b|]. intros H. unfold Rabs. destruct (Rcase_abs x); lra. Qed.

Lemma INR_above (r : R) : exists n : nat, (r < INR n)%R.
Proof.
  exists (Z.to_nat (Z.max 0 (up r))). destruct (archimed r) as [H _].
  rewrite INR_IZR_INZ, Z2Nat.id by lia.
  apply Rlt_le_trans with (IZR (up r)); [lra|]. apply IZR_le. lia.
Qed.
Lemma filter_length_le {A} (f : A -> bool) l : length (filter f l) <= length l.
Proof. induction l as [|x l IH]; cbn; [lia|]. destruct (f x); cbn; lia. Qed.
