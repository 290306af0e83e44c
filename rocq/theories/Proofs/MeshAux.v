(** Lists: sorting, unique, positions, permutation-invariant functions. *)
From Coq Require Import List ZArith Bool Arith Lia Permutation Sorted.
From Verif Require Import Model.Base Model.Mesh.
Import ListNotations.

Lemma insert_nat_perm x l : Permutation (insert_nat x l) (x :: l).
Proof.
  induction l as [|y l IH]; [reflexivity|]. cbn. destruct (x <=? y); [reflexivity|].
  rewrite IH. apply perm_swap.
Qed.
Lemma sort_nat_perm l : Permutation (sort_nat l) l.
Proof. induction l as [|x l IH]; [reflexivity|]. cbn. rewrite insert_nat_perm, IH. reflexivity. Qed.
Lemma insert_nat_sorted x l : StronglySorted le l -> StronglySorted le (insert_nat x l).
Proof.
  induction 1 as [|y l H IH HF]; cbn; [repeat constructor|]. destruct (x <=? y) eqn:E.
  - apply Nat.leb_le in E. constructor; [constructor; assumption|]. constructor; [exact E|]. eapply Forall_impl; [|exact HF]. intros; lia.
  - apply Nat.leb_gt in E. constructor; [exact IH|]. rewrite Forall_forall in *. intros z Hz.
    apply (Permutation_in _ (insert_nat_perm x l)) in Hz. destruct Hz as [<- | Hz]; [lia|]. apply HF, Hz.
Qed.
Lemma sort_nat_sorted l : StronglySorted le (sort_nat l).
Proof. induction l as [|x l IH]; [constructor|]. cbn. apply insert_nat_sorted, IH. Qed.
Lemma sorted_perm_eq l : forall m, StronglySorted le l -> StronglySorted le m -> Permutation l m -> l = m.
Proof.
  induction l as [|x l IH]; intros m Hl Hm HP; [apply Permutation_nil in HP; congruence|].
  destruct m as [|y m]; [symmetry in HP; apply Permutation_nil in HP; discriminate|].
  inversion Hl as [|? ? Sl Fl]; subst. inversion Hm as [|? ? Sm Fm]; subst. rewrite Forall_forall in Fl, Fm.
  assert (x = y) as ->.
  { assert (In x (y :: m)) as I1 by (apply (Permutation_in _ HP); left; reflexivity).
    assert (In y (x :: l)) as I2 by (apply (Permutation_in _ (Permutation_sym HP)); left; reflexivity).
    destruct I1 as [I1|I1]; [congruence|]. destruct I2 as [I2|I2]; [congruence|]. apply Fl in I2. apply Fm in I1. lia. }
  f_equal. apply IH; try assumption. eapply Permutation_cons_inv, HP.
Qed.
Lemma sort_nat_eq l m : sort_nat l = sort_nat m <-> Permutation l m.
Proof.
  split; intros H.
  - rewrite <- (sort_nat_perm l), H. apply sort_nat_perm.
  - apply sorted_perm_eq; try apply sort_nat_sorted. rewrite !sort_nat_perm. exact H.
Qed.
Lemma sort_nat_in x l : In x (sort_nat l) <-> In x l.
Proof. split; apply Permutation_in; [|symmetry]; apply sort_nat_perm. Qed.
Lemma sort_nat_length l : length (sort_nat l) = length l.
Proof. apply Permutation_length, sort_nat_perm. Qed.

Lemma insert_uniq_in x l y : In y (insert_uniq x l) <-> y = x \/ In y l.
Proof.
  assert (forall a b : nat, a = b -> b = a) as SY by congruence.
  induction l as [|z l IH]; cbn [insert_uniq In]; [split; intros [H|H]; auto|]. destruct (x <? z); [cbn; split; intros [H|H]; auto|].
  destruct (x =? z) eqn:E; [apply Nat.eqb_eq in E; subst; cbn; split; [intros [H|H]; auto|intros [H|[H|H]]; auto]|].
  cbn. rewrite IH. tauto.
Qed.
Lemma unique_nat_in l y : In y (unique_nat l) <-> In y l.
Proof. induction l as [|x l IH]; [reflexivity|]. cbn. rewrite insert_uniq_in, IH. split; intros [H|H]; auto. Qed.
Lemma insert_uniq_sorted x l : StronglySorted lt l -> StronglySorted lt (insert_uniq x l).
Proof.
  induction 1 as [|y l H IH HF]; cbn [insert_uniq]; [repeat constructor|]. destruct (x <? y) eqn:E.
  - apply Nat.ltb_lt in E. constructor; [constructor; assumption|]. constructor; [exact E|]. eapply Forall_impl; [|exact HF]. intros; lia.
  - apply Nat.ltb_ge in E. destruct (x =? y) eqn:E2; [constructor; assumption|]. apply Nat.eqb_neq in E2.
    constructor; [exact IH|]. rewrite Forall_forall in *. intros z Hz. apply insert_uniq_in in Hz. destruct Hz as [-> | Hz]; [lia|]. apply HF, Hz.
Qed.
Lemma unique_nat_sorted l : StronglySorted lt (unique_nat l).
Proof. induction l as [|x l IH]; [constructor|]. cbn. apply insert_uniq_sorted, IH. Qed.
Lemma sorted_lt_nodup l : StronglySorted lt l -> NoDup l.
Proof.
  induction 1 as [|x l H IH HF]; [constructor|]. constructor; [|exact IH]. intros I. rewrite Forall_forall in HF. apply HF in I. lia.
Qed.
Lemma unique_nat_nodup l : NoDup (unique_nat l).
Proof. apply sorted_lt_nodup, unique_nat_sorted. Qed.

(** ---- find_pos ---- *)
Lemma find_pos_le {A} (f : A -> bool) l : find_pos f l <= length l.
Proof. induction l as [|x l IH]; cbn; [lia|]. destruct (f x); lia. Qed.
Lemma find_pos_lt {A} (f : A -> bool) l x : In x l -> f x = true -> find_pos f l < length l.
Proof.
  induction l as [|y l IH]; intros Hx Hf; [destruct Hx|]. cbn. destruct (f y) eqn:E; [lia|].
  destruct Hx as [-> | Hx]; [congruence|]. specialize (IH Hx Hf). lia.
Qed.
Lemma find_pos_true {A} (f : A -> bool) l d x : In x l -> f x = true -> f (nth (find_pos f l) l d) = true.
Proof.
  induction l as [|y l IH]; intros Hx Hf; [destruct Hx|]. cbn. destruct (f y) eqn:E; [exact E|].
  destruct Hx as [-> | Hx]; [congruence|]. apply IH; assumption.
Qed.
Lemma find_pos_first {A} (f : A -> bool) l d j : j < find_pos f l -> f (nth j l d) = false.
Proof.
  revert j. induction l as [|y l IH]; intros j Hj; cbn in Hj; [lia|]. destruct (f y) eqn:E; [lia|].
  destruct j as [|j]; [exact E|]. apply IH. lia.
Qed.
Lemma find_pos_nth (l : list nat) i : NoDup l -> i < length l -> find_pos (Nat.eqb (nth i l 0)) l = i.
Proof.
  intros HN. revert i. induction HN as [|x l Hx HN IH]; intros i Hi; cbn in Hi; [lia|]. destruct i as [|i]; cbn.
  - rewrite Nat.eqb_refl. reflexivity.
  - destruct (nth i l 0 =? x) eqn:E.
    + apply Nat.eqb_eq in E. exfalso. apply Hx. rewrite <- E. apply nth_In. lia.
    + f_equal. apply IH. lia.
Qed.
Lemma nth_find_pos l v : In v l -> nth (find_pos (Nat.eqb v) l) l 0 = v.
Proof.
  intros H. pose proof (find_pos_true (Nat.eqb v) l 0 v H (Nat.eqb_refl v)) as E. apply Nat.eqb_eq in E. congruence.
Qed.
Lemma key_eqb_eq x y : key_eqb x y = true <-> x = y.
Proof. unfold key_eqb. destruct (key_dec x y); split; congruence. Qed.
Lemma row_eqb_eq x y : row_eqb x y = true <-> x = y.
Proof. unfold row_eqb. destruct (row_dec x y); split; congruence. Qed.

Lemma nth_map' {A B} (f : A -> B) l i d d' : i < length l -> nth i (map f l) d = f (nth i l d').
Proof. intros H. rewrite (nth_indep (map f l) d (f d')) by (rewrite map_length; exact H). apply map_nth. Qed.

(** a function of lists invariant under adjacent swaps anywhere is permutation invariant *)
Lemma perm_invariant {A B} (F : list A -> B) : (forall pre x y l, F (pre ++ x :: y :: l) = F (pre ++ y :: x :: l)) ->
  forall l m, Permutation l m -> F l = F m.
Proof.
  intros H l m HP. assert (forall pre, F (pre ++ l) = F (pre ++ m)) as K; [|apply (K [])].
  induction HP as [|x l m HP IH|x y l|l m n HP1 IH1 HP2 IH2]; intros pre.
  - reflexivity.
  - specialize (IH (pre ++ [x])). rewrite <- !app_assoc in IH. exact IH.
  - apply H.
  - rewrite IH1. apply IH2.
Qed.
Lemma swap2_perm {A} (r : list A) : Permutation (swap2 r) r.
Proof. destruct r as [|a [|b r]]; cbn; try reflexivity. apply perm_swap. Qed.
Lemma map_swap2 {A B} (f : A -> B) r : map f (swap2 r) = swap2 (map f r).
Proof. destruct r as [|a [|b r]]; reflexivity. Qed.
Lemma NoDup_app_intro {A} (l m : list A) : NoDup l -> NoDup m -> (forall x, In x l -> ~ In x m) -> NoDup (l ++ m).
Proof.
  induction 1 as [|x l Hx HL IH]; intros HM HD; [exact HM|]. cbn. constructor.
  - intros K. apply in_app_iff in K. destruct K as [K|K]; [contradiction|]. exact (HD x (or_introl eq_refl) K).
  - apply IH; [exact HM|]. intros y Hy. apply HD. right; exact Hy.
Qed.
Lemma perm_map_inj {A B} (k : A -> B) (l m : list A) : (forall x y, In x l -> In y m -> k x = k y -> x = y) ->
  Permutation (map k l) (map k m) -> Permutation l m.
Proof.
  intros HI HP. destruct (Permutation_map_inv _ _ HP) as [m' [E P]]. rewrite P.
  assert (l = m') as ->; [|reflexivity].
  assert (forall x y, In x l -> In y m' -> k x = k y -> x = y) as HI'.
  { intros x y Hx Hy. apply HI; [exact Hx|]. apply (Permutation_in _ (Permutation_sym P)), Hy. }
  clear - E HI'. revert m' E HI'. induction l as [|x l IH]; intros [|y m] E HI; cbn in E; try discriminate; [reflexivity|].
  inversion E. f_equal; [apply HI; [left; reflexivity|left; reflexivity|assumption]|].
  apply IH; [assumption|]. intros a b Ha Hb. apply HI; right; assumption.
Qed.
