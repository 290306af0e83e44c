(** The moving averages of uniform_filter: the windowed variance is non-negative, and zero everywhere only for fields that do not vary. *)
From Coq Require Import List ZArith Reals Bool Lia Lra.
From Verif Require Import Model.Base Model.Sizing Model.UFilter Proofs.ListAux Proofs.SizingArr Proofs.SizingMain Proofs.SizingMore.
Import ListNotations.
Local Open Scope R_scope.

Local Notation sum l := (fold_right Rplus 0 l).

(** ---- finite sums ---- *)
Lemma sum_le {A} (f g : A -> R) l : (forall x, In x l -> f x <= g x) -> sum (map f l) <= sum (map g l).
Proof. induction l as [|x l IH]; intros H; cbn [map fold_right]; [lra|]. pose proof (H x (or_introl eq_refl)). assert (sum (map f l) <= sum (map g l)) by (apply IH; intros y Hy; apply H; right; exact Hy). lra. Qed.
Lemma sum_const {A} (c : R) (l : list A) : sum (map (fun _ => c) l) = INR (length l) * c.
Proof. induction l as [|x l IH]; [cbn; ring|]. cbn [map fold_right length]. rewrite IH, S_INR. ring. Qed.
Lemma sum_minus {A} (f g : A -> R) l : sum (map (fun x => f x - g x) l) = sum (map f l) - sum (map g l).
Proof. induction l as [|x l IH]; cbn [map fold_right]; [ring|]. rewrite IH. ring. Qed.
Lemma sum_scal {A} (f : A -> R) c l : sum (map (fun x => c * f x) l) = c * sum (map f l).
Proof. induction l as [|x l IH]; cbn [map fold_right]; [ring|]. rewrite IH. ring. Qed.
Lemma sum_plus {A} (f g : A -> R) l : sum (map (fun x => f x + g x) l) = sum (map f l) + sum (map g l).
Proof. induction l as [|x l IH]; cbn [map fold_right]; [ring|]. rewrite IH. ring. Qed.
Lemma sum_pos {A} (f : A -> R) l : (forall x, In x l -> 0 <= f x) -> 0 <= sum (map f l).
Proof. induction l as [|x l IH]; intros H; cbn [map fold_right]; [lra|]. pose proof (H x (or_introl eq_refl)). assert (0 <= sum (map f l)) by (apply IH; intros y Hy; apply H; right; exact Hy). lra. Qed.
Lemma sum_zero {A} (f : A -> R) l : (forall x, In x l -> 0 <= f x) -> sum (map f l) <= 0 -> forall x, In x l -> f x = 0.
Proof.
  induction l as [|y l IH]; intros H Z x I; [destruct I|]. cbn [map fold_right] in Z.
  assert (0 <= sum (map f l)) as P by (apply sum_pos; intros z Hz; apply H; right; exact Hz).
  pose proof (H y (or_introl eq_refl)). destruct I as [<- | I]; [lra|]. apply IH; [intros z Hz; apply H; right; exact Hz|lra|exact I].
Qed.
(** mean of squares minus square of the mean *)
Lemma sum_var {A} (f : A -> R) l : l <> [] -> let n := INR (length l) in let m := sum (map f l) / n in
  sum (map (fun x => f x * f x) l) / n - m * m = sum (map (fun x => (f x - m) * (f x - m)) l) / n.
Proof.
  intros NE n m. assert (0 < n) as Pn by (apply lt_0_INR; destruct l; [congruence|cbn; lia]).
  assert (sum (map (fun x => (f x - m) * (f x - m)) l) = sum (map (fun x => f x * f x) l) - 2 * m * sum (map f l) + n * (m * m)) as ->.
  { rewrite (map_ext _ (fun x => (f x * f x - (2 * m) * f x) + m * m)) by (intros x; ring).
    rewrite sum_plus, sum_minus, sum_scal, sum_const. unfold n. ring. }
  unfold m. field. lra.
Qed.

(** ---- one line ---- *)
Lemma reflect_lt n z : (0 < n)%nat -> (reflect n z < n)%nat.
Proof.
  intros H. unfold reflect. pose proof (Z.mod_pos_bound z (2 * Z.of_nat n) ltac:(lia)).
  destruct (Nat.ltb_spec (Z.to_nat (z mod (2 * Z.of_nat n))) n); lia.
Qed.
Lemma reflect_in n i : (i < n)%nat -> reflect n (Z.of_nat i) = i.
Proof. intros H. unfold reflect. rewrite Z.mod_small by lia. rewrite Nat2Z.id. destruct (Nat.ltb_spec i n); lia. Qed.
(** reflecting does not increase distances *)
Lemma reflect_step n z : (0 < n)%nat -> (Z.abs (Z.of_nat (reflect n (z + 1)) - Z.of_nat (reflect n z)) <= 1)%Z.
Proof.
  intros H. unfold reflect. set (N := (2 * Z.of_nat n)%Z). pose proof (Z.mod_pos_bound z N ltac:(unfold N; lia)) as B.
  destruct (Z.eq_dec (z mod N) (N - 1)) as [E|E].
  - assert ((z + 1) mod N = 0)%Z as ->. { rewrite Z.add_mod by (unfold N; lia). rewrite E. rewrite (Z.mod_small 1) by (unfold N; lia). replace (N - 1 + 1)%Z with N by ring. apply Z.mod_same. unfold N; lia. }
    rewrite E. cbn [Z.to_nat]. destruct (Nat.ltb_spec 0 n); [|lia]. destruct (Nat.ltb_spec (Z.to_nat (N - 1)) n); unfold N in *; lia.
  - assert ((z + 1) mod N = z mod N + 1)%Z as ->. { rewrite Z.add_mod by (unfold N; lia). rewrite (Z.mod_small 1) by (unfold N; lia). apply Z.mod_small. lia. }
    destruct (Nat.ltb_spec (Z.to_nat (z mod N + 1)) n), (Nat.ltb_spec (Z.to_nat (z mod N)) n); unfold N in *; lia.
Qed.
Lemma reflect_near n z m : (0 < n)%nat -> (Z.abs (Z.of_nat (reflect n (z + Z.of_nat m)) - Z.of_nat (reflect n z)) <= Z.of_nat m)%Z.
Proof.
  intros H. induction m as [|m IH]; [rewrite Z.add_0_r; lia|]. pose proof (reflect_step n (z + Z.of_nat m) H).
  replace (z + Z.of_nat (S m))%Z with (z + Z.of_nat m + 1)%Z by lia. lia.
Qed.
Lemma reflect_dist n i z : (i < n)%nat -> (Z.abs (Z.of_nat (reflect n z) - Z.of_nat i) <= Z.abs (z - Z.of_nat i))%Z.
Proof.
  intros H. destruct (Z_le_gt_dec (Z.of_nat i) z) as [L|L].
  - pose proof (reflect_near n (Z.of_nat i) (Z.to_nat (z - Z.of_nat i)) ltac:(lia)) as R. rewrite reflect_in in R by exact H. rewrite Z2Nat.id in R by lia.
    replace (Z.of_nat i + (z - Z.of_nat i))%Z with z in R by ring. lia.
  - pose proof (reflect_near n z (Z.to_nat (Z.of_nat i - z)) ltac:(lia)) as R. rewrite Z2Nat.id in R by lia.
    replace (z + (Z.of_nat i - z))%Z with (Z.of_nat i) in R by ring. rewrite reflect_in in R by exact H. lia.
Qed.

Section Line.
Variables (w n : nat).
Hypothesis W : (0 < w)%nat.
Hypothesis N : (0 < n)%nat.
Let pos (i j : nat) : nat := reflect n (Z.of_nat i - Z.of_nat (w / 2) + Z.of_nat j).
Lemma w_pos : 0 < INR w. Proof. apply lt_0_INR, W. Qed.
Lemma pos_lt i j : (pos i j < n)%nat. Proof. apply reflect_lt, N. Qed.
Lemma half_lt : (w / 2 < w)%nat. Proof. apply Nat.div_lt; lia. Qed.
Lemma pos_self i : (i < n)%nat -> pos i (w / 2) = i.
Proof. intros H. unfold pos. replace (_ - _ + _)%Z with (Z.of_nat i) by lia. apply reflect_in, H. Qed.
Lemma pos_prev i : (2 <= w)%nat -> (S i < n)%nat -> pos (S i) (w / 2 - 1) = i.
Proof.
  intros H2 H. assert (1 <= w / 2)%nat by (apply Nat.div_le_lower_bound; lia). unfold pos. replace (_ - _ + _)%Z with (Z.of_nat i) by lia. apply reflect_in. lia.
Qed.
Lemma pos_near i j : (i < n)%nat -> (j < w)%nat -> (i <= pos i j + w / 2)%nat /\ (pos i j <= i + w / 2)%nat.
Proof.
  intros Hi Hj. pose proof (reflect_dist n i (Z.of_nat i - Z.of_nat (w / 2) + Z.of_nat j) Hi) as D. fold (pos i j) in D.
  assert (w <= 2 * (w / 2) + 1)%nat. { pose proof (Nat.div_mod w 2 ltac:(lia)). pose proof (Nat.mod_upper_bound w 2 ltac:(lia)). lia. }
  lia.
Qed.
Lemma mean_le f g i : (forall x, (x < n)%nat -> f x <= g x) -> mean_line w n f i <= mean_line w n g i.
Proof.
  intros H. unfold mean_line, Rdiv. apply Rmult_le_compat_r; [apply Rlt_le, Rinv_0_lt_compat, w_pos|].
  apply sum_le. intros j _. apply H, pos_lt.
Qed.
Lemma mean_ext f g i : (forall x, (x < n)%nat -> f x = g x) -> mean_line w n f i = mean_line w n g i.
Proof. intros H. apply Rle_antisym; apply mean_le; intros x Hx; rewrite (H x Hx); lra. Qed.
Lemma mean_minus f g i : mean_line w n (fun x => f x - g x) i = mean_line w n f i - mean_line w n g i.
Proof. unfold mean_line. rewrite sum_minus. unfold Rdiv. ring. Qed.
Lemma mean_eq_near f c i : (i < n)%nat -> (forall x, (x < n)%nat -> (i <= x + w / 2)%nat -> (x <= i + w / 2)%nat -> f x = c) -> mean_line w n f i = c.
Proof.
  intros Hi H. unfold mean_line. rewrite (map_ext_in _ (fun _ => c)).
  - rewrite sum_const, seq_length. field. pose proof w_pos. lra.
  - intros j Hj. apply in_seq in Hj. destruct (pos_near i j Hi ltac:(lia)). apply H; [apply pos_lt|assumption|assumption].
Qed.
Lemma mean_var f i : mean_line w n (fun x => f x * f x) i - mean_line w n f i * mean_line w n f i =
  sum (map (fun j => (f (pos i j) - mean_line w n f i) * (f (pos i j) - mean_line w n f i)) (seq 0 w)) / INR w.
Proof.
  pose proof (sum_var (fun j => f (pos i j)) (seq 0 w)) as V. cbv zeta in V. rewrite seq_length in V. unfold mean_line. apply V.
  destruct w; [lia|]. discriminate.
Qed.
Lemma mean_jensen f i : mean_line w n f i * mean_line w n f i <= mean_line w n (fun x => f x * f x) i.
Proof.
  pose proof (mean_var f i) as V. assert (0 <= sum (map (fun j => (f (pos i j) - mean_line w n f i) * (f (pos i j) - mean_line w n f i)) (seq 0 w)) / INR w); [|lra].
  apply Rmult_le_pos; [|apply Rlt_le, Rinv_0_lt_compat, w_pos].
  apply sum_pos. intros j _. apply Rle_0_sqr.
Qed.
Lemma mean_no_var f i : mean_line w n (fun x => f x * f x) i = mean_line w n f i * mean_line w n f i -> forall j, (j < w)%nat -> f (pos i j) = mean_line w n f i.
Proof.
  intros E j Hj. pose proof (mean_var f i) as V. rewrite E in V.
  set (S := sum (map (fun j => (f (pos i j) - mean_line w n f i) * (f (pos i j) - mean_line w n f i)) (seq 0 w))) in *.
  assert (S = 0) as Z. { pose proof w_pos. apply Rmult_eq_reg_r with (/ INR w); [|apply Rinv_neq_0_compat; lra]. rewrite Rmult_0_l. unfold Rdiv in V. lra. }
  pose proof (sum_zero (fun j => (f (pos i j) - mean_line w n f i) * (f (pos i j) - mean_line w n f i)) (seq 0 w) ltac:(intros x _; apply Rle_0_sqr) ltac:(fold S; lra) j ltac:(apply in_seq; lia)) as Q.
  cbv beta in Q. apply Rmult_integral in Q. lra.
Qed.
Lemma mean_zero f i : (forall x, (x < n)%nat -> 0 <= f x) -> (i < n)%nat -> mean_line w n f i = 0 -> f i = 0.
Proof.
  intros P Hi Z. rewrite <- (pos_self i Hi).
  apply (sum_zero (fun j => f (pos i j)) (seq 0 w)); [intros j _; apply P, pos_lt| |apply in_seq; pose proof half_lt; lia].
  unfold mean_line in Z. pose proof w_pos. unfold pos. apply Rmult_integral in Z. destruct Z as [Z|Z]; [rewrite Z; lra|].
  exfalso. apply (Rinv_neq_0_compat (INR w)) in Z; [exact Z|lra].
Qed.
(** a line whose moving variance vanishes is constant *)
Lemma mean_constant f : (2 <= w)%nat -> (forall i, (i < n)%nat -> mean_line w n (fun x => f x * f x) i = mean_line w n f i * mean_line w n f i) -> forall i, (i < n)%nat -> f i = f 0%nat.
Proof.
  intros H2 E. induction i as [|i IH]; intros Hi; [reflexivity|]. rewrite <- IH by lia.
  assert (1 <= w / 2)%nat by (apply Nat.div_le_lower_bound; lia).
  pose proof (mean_no_var f (S i) (E (S i) Hi) (w / 2) half_lt) as A. pose proof (mean_no_var f (S i) (E (S i) Hi) (w / 2 - 1) ltac:(pose proof half_lt; lia)) as B.
  rewrite pos_self in A by exact Hi. rewrite pos_prev in B by (exact H2 || exact Hi). congruence.
Qed.
End Line.
Lemma mean_one n f i : (i < n)%nat -> mean_line 1 n f i = f i.
Proof. intros H. unfold mean_line. cbn [seq map fold_right]. replace (Z.of_nat i - Z.of_nat (1 / 2) + Z.of_nat 0)%Z with (Z.of_nat i) by (cbn; lia). rewrite reflect_in by exact H. cbn. field. Qed.

(** ---- one axis of an array ---- *)
Definition sqa (a : garr) : garr := amap (fun v => v * v) a.
Definition same (a b : garr) : Prop := shape_eq a b /\ forall i j k, inr a i j k -> av a i j k = av b i j k.
Definition below (a b : garr) : Prop := shape_eq a b /\ forall i j k, inr a i j k -> av a i j k <= av b i j k.
Definition diff (a b : garr) : garr := amap2 Rminus a b.
Record mean_like (G : garr -> garr) (T : garr -> Prop) : Prop := mkML {
  ml_shape : forall a, shape_eq (G a) a;
  ml_le : forall a b, positive_shape a -> below a b -> below (G a) (G b);
  ml_minus : forall a b, shape_eq a b -> positive_shape a -> same (G (diff a b)) (diff (G a) (G b));
  ml_jensen : forall a, positive_shape a -> below (sqa (G a)) (G (sqa a));
  ml_zero : forall a, positive_shape a -> (forall i j k, inr a i j k -> 0 <= av a i j k) -> (forall i j k, inr a i j k -> av (G a) i j k = 0) -> forall i j k, inr a i j k -> av a i j k = 0;
  ml_const : forall a, positive_shape a -> same (G (sqa a)) (sqa (G a)) -> T a;
  ml_fix : forall a, positive_shape a -> T a -> same (G a) a;
  ml_sq : forall a, T a -> T (sqa a);
  ml_ext : forall a b, same a b -> T a -> T b }.


Definition const_along (axis : nat) (a : garr) : Prop := forall i j k i' j' k', inr a i j k -> inr a i' j' k' ->
  (axis <> 0%nat -> i = i') -> (axis <> 1%nat -> j = j') -> (axis <> 2%nat -> k = k') -> av a i j k = av a i' j' k'.

Lemma inr_lt a i j k : inr a i j k -> (i < n0 a /\ j < n1 a /\ k < n2 a)%nat. Proof. exact (fun H => H). Qed.

Ltac axis_proof G W0 :=
  constructor;
  [ intros a; repeat split
  | intros a b P [Sh L]; split; [exact Sh|]; intros i j k Hin; cbn [av G]; destruct Sh as (Q & Q0 & Q1 & Q2); rewrite <- ?Q0, <- ?Q1, <- ?Q2;
    destruct Hin as (H0 & H1 & H2); destruct P as (P0 & P1 & P2); apply mean_le; [assumption|assumption|intros x Hx; apply L; repeat split; cbn in *; assumption]
  | intros a b Sh P; split; [repeat split|]; intros i j k Hin; cbn [av G diff amap2 n0 n1 n2]; destruct Sh as (Q & Q0 & Q1 & Q2); rewrite <- ?Q0, <- ?Q1, <- ?Q2;
    destruct P as (P0 & P1 & P2); apply mean_minus
  | intros a (P0 & P1 & P2); split; [repeat split|]; intros i j k Hin; cbn [av G sqa amap n0 n1 n2]; apply mean_jensen; assumption
  | intros a (P0 & P1 & P2) Pos Z i j k Hin; pose proof (Z i j k Hin) as Zi; cbn [av G] in Zi; destruct Hin as (H0 & H1 & H2);
    first [ solve [apply (mean_zero _ _ W0 P0 (fun x => av a x j k) i); [intros x Hx; apply Pos; repeat split; assumption|assumption|exact Zi]] | solve [apply (mean_zero _ _ W0 P1 (fun x => av a i x k) j); [intros x Hx; apply Pos; repeat split; assumption|assumption|exact Zi]] | solve [apply (mean_zero _ _ W0 P2 (fun x => av a i j x) k); [intros x Hx; apply Pos; repeat split; assumption|assumption|exact Zi]] ]
  | intros a (P0 & P1 & P2) [_ E]; intros i j k i' j' k' (H0 & H1 & H2) (H0' & H1' & H2') A0 A1 A2;
    (first [rewrite <- (A0 ltac:(discriminate)) in * | idtac]); (first [rewrite <- (A1 ltac:(discriminate)) in * | idtac]); (first [rewrite <- (A2 ltac:(discriminate)) in * | idtac])
  | intros a (P0 & P1 & P2) T; split; [repeat split|]; intros i j k (H0 & H1 & H2); cbn [av G n0 n1 n2] in *
  | intros a T i j k i' j' k' Hi Hi' A0 A1 A2; cbn [av sqa amap]; rewrite (T i j k i' j' k' Hi Hi' A0 A1 A2); reflexivity
  | intros a b [Sh E] T i j k i' j' k' Hi Hi' A0 A1 A2; apply shape_eq_sym in Sh; rewrite <- (E i j k), <- (E i' j' k') by (eapply shape_eq_inr; eassumption);
    apply T; try assumption; eapply shape_eq_inr; eassumption ].

Lemma ml_mean0 w : (2 <= w)%nat -> mean_like (mean0 w) (const_along 0).
Proof.
  intros W. assert (0 < w)%nat as W0 by lia. axis_proof mean0 W0.
  - transitivity (av a 0%nat j k); [|symmetry]; apply (mean_constant w (n0 a) W0 P0 (fun x => av a x j k) W); try assumption; intros x Hx; apply (E x j k); repeat split; assumption.
  - rewrite (mean_eq_near w (n0 a) W0 P0 _ (av a i j k)); try assumption; [reflexivity|]. intros x Hx _ _. apply T; repeat split; try assumption; congruence.
Qed.
Lemma ml_mean1 w : (2 <= w)%nat -> mean_like (mean1 w) (const_along 1).
Proof.
  intros W. assert (0 < w)%nat as W0 by lia. axis_proof mean1 W0.
  - transitivity (av a i 0%nat k); [|symmetry]; apply (mean_constant w (n1 a) W0 P1 (fun x => av a i x k) W); try assumption; intros x Hx; apply (E i x k); repeat split; assumption.
  - rewrite (mean_eq_near w (n1 a) W0 P1 _ (av a i j k)); try assumption; [reflexivity|]. intros x Hx _ _. apply T; repeat split; try assumption; congruence.
Qed.
Lemma ml_mean2 w : (2 <= w)%nat -> mean_like (mean2 w) (const_along 2).
Proof.
  intros W. assert (0 < w)%nat as W0 by lia. axis_proof mean2 W0.
  - transitivity (av a i j 0%nat); [|symmetry]; apply (mean_constant w (n2 a) W0 P2 (fun x => av a i j x) W); try assumption; intros x Hx; apply (E i j x); repeat split; assumption.
  - rewrite (mean_eq_near w (n2 a) W0 P2 _ (av a i j k)); try assumption; [reflexivity|]. intros x Hx _ _. apply T; repeat split; try assumption; congruence.
Qed.

(** ---- composition ---- *)
Lemma same_refl a : same a a. Proof. split; [apply shape_eq_refl|reflexivity]. Qed.
Lemma same_sym a b : same a b -> same b a.
Proof. intros [Sh E]. split; [apply shape_eq_sym, Sh|]. intros i j k Hi. symmetry. apply E. eapply shape_eq_inr; [apply shape_eq_sym, Sh|exact Hi]. Qed.
Lemma same_trans a b c : same a b -> same b c -> same a c.
Proof. intros [Sh E] [Sh' E']. split; [eapply shape_eq_trans; eassumption|]. intros i j k Hi. rewrite E by exact Hi. apply E'. eapply shape_eq_inr; eassumption. Qed.
Lemma same_below a b : same a b -> below a b. Proof. intros [Sh E]. split; [exact Sh|]. intros i j k Hi. rewrite E by exact Hi. lra. Qed.
Lemma below_antisym a b : below a b -> below b a -> same a b.
Proof. intros [Sh L] [_ L']. split; [exact Sh|]. intros i j k Hi. apply Rle_antisym; [apply L, Hi|apply L'; eapply shape_eq_inr; eassumption]. Qed.
Lemma below_trans a b c : below a b -> below b c -> below a c.
Proof. intros [Sh L] [Sh' L']. split; [eapply shape_eq_trans; eassumption|]. intros i j k Hi. eapply Rle_trans; [apply L, Hi|apply L'; eapply shape_eq_inr; eassumption]. Qed.
Lemma shape_pos a b : shape_eq a b -> positive_shape a -> positive_shape b.
Proof. unfold shape_eq, positive_shape. intros (_ & -> & -> & ->). auto. Qed.
Lemma sqa_shape a : shape_eq (sqa a) a. Proof. repeat split. Qed.
Lemma sqa_same a b : same a b -> same (sqa a) (sqa b).
Proof. intros [Sh E]. split; [exact Sh|]. intros i j k Hi. cbn [av sqa amap]. rewrite (E i j k Hi). reflexivity. Qed.
Section MeanLike.
Variables (G : garr -> garr) (T : garr -> Prop).
Hypothesis M : mean_like G T.
Lemma ml_same a b : positive_shape a -> same a b -> same (G a) (G b).
Proof.
  intros P Q. apply below_antisym; apply (ml_le G T M).
  - exact P.
  - apply same_below, Q.
  - apply (shape_pos a b); [apply Q|exact P].
  - apply same_below, same_sym, Q.
Qed.
Lemma ml_nonneg a : positive_shape a -> (forall i j k, inr a i j k -> 0 <= av a i j k) -> forall i j k, inr a i j k -> 0 <= av (G a) i j k.
Proof.
  intros P Q i j k Hi. destruct (ml_minus G T M a a (shape_eq_refl a) P) as [Sh E].
  destruct (ml_le G T M (diff a a) a) as [_ L]; [exact P| |].
  - split; [repeat split|]. intros x y z Hx. cbn [av diff amap2]. specialize (Q x y z Hx). lra.
  - assert (inr (G (diff a a)) i j k) as Hd by (eapply shape_eq_inr; [apply shape_eq_sym, (ml_shape G T M)|exact Hi]).
    specialize (L i j k Hd). rewrite (E i j k Hd) in L. cbn [av diff amap2] in L. lra.
Qed.
End MeanLike.
Lemma ml_compose G T H U : mean_like G T -> mean_like H U -> mean_like (fun a => H (G a)) (fun a => T a /\ U a).
Proof.
  intros MG MH. assert (forall a, positive_shape a -> positive_shape (G a)) as PG by (intros a; apply shape_pos, shape_eq_sym, (ml_shape G T MG)).
  constructor.
  - intros a. eapply shape_eq_trans; [apply (ml_shape H U MH)|apply (ml_shape G T MG)].
  - intros a b P L. apply (ml_le H U MH); [apply PG, P|apply (ml_le G T MG); assumption].
  - intros a b Sh P. eapply same_trans; [apply (ml_same H U MH); [apply PG; exact P|apply (ml_minus G T MG); assumption]|].
    apply (ml_minus H U MH); [|apply PG, P]. eapply shape_eq_trans; [apply (ml_shape G T MG)|]. eapply shape_eq_trans; [exact Sh|apply shape_eq_sym, (ml_shape G T MG)].
  - intros a P. eapply below_trans; [apply (ml_jensen H U MH), PG, P|]. apply (ml_le H U MH); [|apply (ml_jensen G T MG), P].
    apply (shape_pos (G a)); [apply shape_eq_sym, sqa_shape|apply PG, P].
  - intros a P Pos Z. apply (ml_zero G T MG a P Pos).
    assert (forall i j k, inr (G a) i j k -> av (G a) i j k = 0) as Z'.
    { apply (ml_zero H U MH); [apply PG, P| |].
      - intros i j k Hi. apply (ml_nonneg G T MG a P Pos). eapply shape_eq_inr; [apply (ml_shape G T MG)|exact Hi].
      - intros i j k Hi. apply Z. eapply shape_eq_inr; [apply (ml_shape G T MG)|exact Hi]. }
    intros i j k Hi. apply Z'. eapply shape_eq_inr; [apply shape_eq_sym, (ml_shape G T MG)|exact Hi].
  - intros a P E. assert (positive_shape (sqa a)) as Ps by (apply (shape_pos a); [apply shape_eq_sym, sqa_shape|exact P]).
    assert (positive_shape (sqa (G a))) as Pgs by (apply (shape_pos (G a)); [apply shape_eq_sym, sqa_shape|apply PG, P]).
    pose proof (ml_jensen H U MH (G a) (PG a P)) as J1. pose proof (ml_le H U MH _ _ Pgs (ml_jensen G T MG a P)) as J2.
    assert (same (H (sqa (G a))) (sqa (H (G a)))) as E1.
    { apply below_antisym; [|exact J1]. eapply below_trans; [exact J2|apply same_below, E]. }
    assert (same (H (G (sqa a))) (H (sqa (G a)))) as E2 by (eapply same_trans; [exact E|apply same_sym, E1]).
    assert (same (G (sqa a)) (sqa (G a))) as E3.
    { assert (shape_eq (G (sqa a)) (sqa (G a))) as Sh. { eapply shape_eq_trans; [apply (ml_shape G T MG)|]. eapply shape_eq_trans; [apply sqa_shape|]. apply shape_eq_sym. eapply shape_eq_trans; [apply sqa_shape|apply (ml_shape G T MG)]. }
      split; [exact Sh|]. pose proof (ml_zero H U MH (diff (G (sqa a)) (sqa (G a)))) as Z. cbv beta in Z.
      assert (forall i j k, inr (diff (G (sqa a)) (sqa (G a))) i j k -> av (diff (G (sqa a)) (sqa (G a))) i j k = 0) as Z'.
      - apply Z; [exact (PG _ Ps)| |].
        + intros i j k Hi. cbn [av diff amap2]. destruct (ml_jensen G T MG a P) as [_ L]. specialize (L i j k). cut (av (sqa (G a)) i j k <= av (G (sqa a)) i j k); [lra|]. apply L. eapply shape_eq_inr; [exact Sh|exact Hi].
        + intros i j k Hi. destruct (ml_minus H U MH (G (sqa a)) (sqa (G a)) Sh (PG _ Ps)) as [Shm Em].
          assert (inr (H (G (sqa a))) i j k) as Hi' by (eapply shape_eq_inr; [apply shape_eq_sym, (ml_shape H U MH)|exact Hi]).
          rewrite Em by (eapply shape_eq_inr; [apply shape_eq_sym, (ml_shape H U MH)|exact Hi]). cbn [av diff amap2]. destruct E2 as [_ E2]. rewrite (E2 i j k Hi'). lra.
      - intros i j k Hi. specialize (Z' i j k Hi). cbn [av diff amap2] in Z'. lra. }
    pose proof (ml_const G T MG a P E3) as Ta. split; [exact Ta|]. apply (ml_ext H U MH (G a)); [apply (ml_fix G T MG); assumption|]. apply (ml_const H U MH); [apply PG, P|exact E1].
  - intros a P [Ta Ua]. pose proof (ml_fix G T MG a P Ta) as Q. eapply same_trans; [apply (ml_same H U MH); [apply PG, P|exact Q]|apply (ml_fix H U MH); assumption].
  - intros a [Ta Ua]. split; [apply (ml_sq G T MG), Ta|apply (ml_sq H U MH), Ua].
  - intros a b Q [Ta Ua]. split; [apply (ml_ext G T MG a b Q Ta)|apply (ml_ext H U MH a b Q Ua)].
Qed.
Lemma ml_id G : (forall a, same (G a) a) -> mean_like G (fun _ => True).
Proof.
  intros S0. assert (forall a i j k, inr a i j k -> av (G a) i j k = av a i j k) as V.
  { intros a i j k Hi. apply S0. eapply shape_eq_inr; [apply shape_eq_sym, S0|exact Hi]. }
  constructor; try exact (fun _ _ => I); try exact (fun _ _ _ => I).
  - intros a. apply S0.
  - intros a b P L. eapply below_trans; [apply same_below, S0|]. eapply below_trans; [exact L|apply same_below, same_sym, S0].
  - intros a b Sh P. eapply same_trans; [apply S0|]. split; [apply shape_eq_sym; exact (proj1 (S0 a))|]. intros i j k Hi. cbn [av diff amap2] in *.
    rewrite (V a) by exact Hi. rewrite (V b) by (eapply shape_eq_inr; [exact Sh|exact Hi]). reflexivity.
  - intros a P. apply same_below. eapply same_trans; [apply sqa_same, S0|apply same_sym, S0].
  - intros a P Pos Z i j k Hi. rewrite <- (Z i j k Hi). symmetry. apply V, Hi.
  - intros a P _. apply S0.
  - exact (fun _ _ _ _ => I).
Qed.
Lemma int_of_two s : 2 <= s -> (2 <= int_of s)%nat.
Proof. intros H. destruct (int_of_spec s ltac:(lra)) as [_ L]. rewrite <- S_INR in L. assert (2 < INR (S (int_of s))) as Q by lra. change 2 with (INR 2) in Q. apply INR_lt in Q. lia. Qed.
Lemma int_of_one s : 1 < s < 2 -> int_of s = 1%nat.
Proof.
  intros H. destruct (int_of_spec s ltac:(lra)) as [L1 L2]. rewrite <- S_INR in L2. assert (INR 1 < INR (S (int_of s))) as Q by (change (INR 1) with 1; lra). apply INR_lt in Q.
  assert (INR (int_of s) < INR 2) as Q' by (change (INR 2) with 2; lra). apply INR_lt in Q'. lia.
Qed.
Definition needs_const (s : R) (axis : nat) (a : garr) : Prop := 2 <= s -> const_along axis a.
Lemma ml_weaken G T T' : (forall a, T a <-> T' a) -> mean_like G T -> mean_like G T'.
Proof.
  intros Q [A B C D E F K L M]. constructor; auto.
  - intros a P H. apply Q. apply F; assumption.
  - intros a P H. apply K; [exact P|apply Q, H].
  - intros a H. apply Q. apply L. apply Q, H.
  - intros a b S0 H. apply Q. apply (M a b S0). apply Q, H.
Qed.
Lemma along_ml s F axis : (forall w, (2 <= w)%nat -> mean_like (F w) (const_along axis)) -> (forall a, same (F 1%nat a) a) -> mean_like (along s F) (needs_const s axis).
Proof.
  intros H2 H1. unfold along, needs_const. destruct (Rltb 1 s) eqn:E.
  - apply Rltb_true in E. destruct (Rle_lt_dec 2 s) as [L|L].
    + apply (ml_weaken _ (const_along axis)); [intros a; tauto|]. apply H2, int_of_two, L.
    + rewrite int_of_one by lra. apply (ml_weaken _ (fun _ => True)); [intros a; split; [intros _ C; lra|tauto]|]. apply ml_id, H1.
  - apply Rltb_false in E. apply (ml_weaken _ (fun _ => True)); [intros a; split; [intros _ C; lra|tauto]|]. apply ml_id. apply same_refl.
Qed.
Lemma mean0_one a : same (mean0 1 a) a. Proof. split; [repeat split|]. intros i j k (H0 & H1 & H2). cbn [av mean0]. apply (mean_one (n0 a) (fun x => av a x j k)), H0. Qed.
Lemma mean1_one a : same (mean1 1 a) a. Proof. split; [repeat split|]. intros i j k (H0 & H1 & H2). cbn [av mean1]. apply (mean_one (n1 a) (fun x => av a i x k)), H1. Qed.
Lemma mean2_one a : same (mean2 1 a) a. Proof. split; [repeat split|]. intros i j k (H0 & H1 & H2). cbn [av mean2]. apply (mean_one (n2 a) (fun x => av a i j x)), H2. Qed.
Definition flat (win : list R) (a : garr) : Prop := (needs_const (nth 0 win 0) 0 a /\ needs_const (nth 1 win 0) 1 a) /\ needs_const (nth 2 win 0) 2 a.
Lemma uniform_ml win : mean_like (uniform_filter win) (flat win).
Proof.
  unfold uniform_filter, flat. apply (ml_compose (fun a => along (nth 1 win 0) mean1 (along (nth 0 win 0) mean0 a))).
  - apply (ml_compose (along (nth 0 win 0) mean0)); apply along_ml; auto using ml_mean0, ml_mean1, mean0_one, mean1_one.
  - apply along_ml; auto using ml_mean2, mean2_one.
Qed.
(** ---- the variance ---- *)
Lemma variance_shape win vp : shape_eq (window_variance (uniform_filter win) vp) vp.
Proof. unfold window_variance. eapply shape_eq_trans; [|exact (ml_shape _ _ (uniform_ml win) (sqa vp))]. repeat split. Qed.
Lemma variance_at win vp i j k : inr vp i j k -> av (window_variance (uniform_filter win) vp) i j k =
  av (uniform_filter win (sqa vp)) i j k - av (sqa (uniform_filter win vp)) i j k.
Proof. reflexivity. Qed.
Lemma variance_nonneg win vp : positive_shape vp -> forall i j k, inr vp i j k -> 0 <= av (window_variance (uniform_filter win) vp) i j k.
Proof.
  intros P i j k Hi. rewrite variance_at by exact Hi. destruct (ml_jensen _ _ (uniform_ml win) vp P) as [_ L].
  cut (av (sqa (uniform_filter win vp)) i j k <= av (uniform_filter win (sqa vp)) i j k); [lra|]. apply L.
  eapply shape_eq_inr; [apply shape_eq_sym; eapply shape_eq_trans; [apply sqa_shape|apply (ml_shape _ _ (uniform_ml win))]|exact Hi].
Qed.
Lemma variance_zero_iff win vp : positive_shape vp -> (amax (window_variance (uniform_filter win) vp) = 0 <-> flat win vp).
Proof.
  intros P. pose proof (uniform_ml win) as M. pose proof (variance_shape win vp) as Sh.
  assert (positive_shape (window_variance (uniform_filter win) vp)) as Pv by (apply (shape_pos vp); [apply shape_eq_sym, Sh|exact P]).
  assert (shape_eq (uniform_filter win (sqa vp)) vp) as Sq by (eapply shape_eq_trans; [apply (ml_shape _ _ M)|apply sqa_shape]).
  split.
  - intros Z. apply (ml_const _ _ M vp P). split; [eapply shape_eq_trans; [exact Sq|]; apply shape_eq_sym; eapply shape_eq_trans; [apply sqa_shape|apply (ml_shape _ _ M)]|].
    intros i j k Hi. assert (inr vp i j k) as Hi' by (eapply shape_eq_inr; [exact Sq|exact Hi]).
    pose proof (variance_nonneg win vp P i j k Hi') as L. pose proof (amax_ge (window_variance (uniform_filter win) vp) i j k ltac:(eapply shape_eq_inr; [apply shape_eq_sym, Sh|exact Hi'])) as L'.
    rewrite Z in L'. rewrite variance_at in * by exact Hi'. lra.
  - intros F. destruct (amax_attained _ Pv) as (i & j & k & Hi & <-). assert (inr vp i j k) as Hi' by (eapply shape_eq_inr; [exact Sh|exact Hi]). rewrite variance_at by exact Hi'.
    destruct (ml_fix _ _ M vp P F) as [Sf E]. destruct (ml_fix _ _ M (sqa vp) P (ml_sq _ _ M vp F)) as [_ E'].
    rewrite E' by (eapply shape_eq_inr; [apply shape_eq_sym, Sq|exact Hi']). cbn [av sqa amap]. rewrite E by (eapply shape_eq_inr; [apply shape_eq_sym, Sf|exact Hi']). lra.
Qed.
(** ---- where the velocity does not change within the window ---- *)
Definition reach_of (s : R) : R := Rmax 0 (s / 2).
Lemma along_shape s F a : (forall w b, shape_eq (F w b) b) -> shape_eq (along s F a) a.
Proof. intros H. unfold along. destruct (Rltb 1 s); [apply H|apply shape_eq_refl]. Qed.
Lemma reach_int s i x : 1 < s -> (i <= x + int_of s / 2)%nat -> (x <= i + int_of s / 2)%nat -> Rabs (INR i - INR x) <= reach_of s.
Proof.
  intros H A B. apply Rle_trans with (INR (int_of s / 2)).
  - apply le_INR in A, B. rewrite plus_INR in A, B. apply Rabs_le. lra.
  - unfold reach_of. eapply Rle_trans; [|apply Rmax_r]. destruct (int_of_spec s ltac:(lra)) as [L _].
    assert (2 * (int_of s / 2) <= int_of s)%nat as Q by (apply Nat.mul_div_le; lia). apply le_INR in Q. rewrite mult_INR in Q. change (INR 2) with 2 in Q. lra.
Qed.
Lemma self_reach s i : Rabs (INR i - INR i) <= reach_of s.
Proof. replace (INR i - INR i) with 0 by ring. rewrite Rabs_R0. apply Rmax_l. Qed.
Lemma int_of_pos s : 1 < s -> (0 < int_of s)%nat.
Proof. intros H. destruct (int_of_spec s ltac:(lra)) as [_ L]. rewrite <- S_INR in L. assert (INR 1 < INR (S (int_of s))) as Q by (change (INR 1) with 1; lra). apply INR_lt in Q. lia. Qed.
Lemma along0_near s a i j k c : inr a i j k -> (forall i', (i' < n0 a)%nat -> Rabs (INR i - INR i') <= reach_of s -> av a i' j k = c) -> av (along s mean0 a) i j k = c.
Proof.
  intros (H0 & H1 & H2) H. unfold along. destruct (Rltb 1 s) eqn:E; [|apply H; [exact H0|apply self_reach]]. apply Rltb_true in E. cbn [av mean0].
  apply (mean_eq_near (int_of s) (n0 a) (int_of_pos s E) ltac:(lia) (fun x => av a x j k)); [exact H0|]. intros x Hx A B. apply H; [exact Hx|apply reach_int; assumption].
Qed.
Lemma along1_near s a i j k c : inr a i j k -> (forall j', (j' < n1 a)%nat -> Rabs (INR j - INR j') <= reach_of s -> av a i j' k = c) -> av (along s mean1 a) i j k = c.
Proof.
  intros (H0 & H1 & H2) H. unfold along. destruct (Rltb 1 s) eqn:E; [|apply H; [exact H1|apply self_reach]]. apply Rltb_true in E. cbn [av mean1].
  apply (mean_eq_near (int_of s) (n1 a) (int_of_pos s E) ltac:(lia) (fun x => av a i x k)); [exact H1|]. intros x Hx A B. apply H; [exact Hx|apply reach_int; assumption].
Qed.
Lemma along2_near s a i j k c : inr a i j k -> (forall k', (k' < n2 a)%nat -> Rabs (INR k - INR k') <= reach_of s -> av a i j k' = c) -> av (along s mean2 a) i j k = c.
Proof.
  intros (H0 & H1 & H2) H. unfold along. destruct (Rltb 1 s) eqn:E; [|apply H; [exact H2|apply self_reach]]. apply Rltb_true in E. cbn [av mean2].
  apply (mean_eq_near (int_of s) (n2 a) (int_of_pos s E) ltac:(lia) (fun x => av a i j x)); [exact H2|]. intros x Hx A B. apply H; [exact Hx|apply reach_int; assumption].
Qed.
(** entries at most half a window away along every axis *)
Definition in_window (win : list R) (i j k i' j' k' : nat) : Prop :=
  Rabs (INR i - INR i') <= Rmax 0 (nth 0 win 0 / 2) /\ Rabs (INR j - INR j') <= Rmax 0 (nth 1 win 0 / 2) /\ Rabs (INR k - INR k') <= Rmax 0 (nth 2 win 0 / 2).
Lemma uniform_near win a i j k c : inr a i j k -> (forall i' j' k', inr a i' j' k' -> in_window win i j k i' j' k' -> av a i' j' k' = c) -> av (uniform_filter win a) i j k = c.
Proof.
  intros (H0 & H1 & H2) H. unfold uniform_filter.
  pose proof (along_shape (nth 0 win 0) mean0 a ltac:(intros; repeat split)) as S0.
  pose proof (shape_eq_trans _ _ _ (along_shape (nth 1 win 0) mean1 (along (nth 0 win 0) mean0 a) ltac:(intros; repeat split)) S0) as S1.
  apply along2_near; [eapply shape_eq_inr; [apply shape_eq_sym, S1|repeat split; assumption]|]. intros k' Hk' Rk. destruct S1 as (_ & Q0 & Q1 & Q2). rewrite Q2 in Hk'.
  apply along1_near; [eapply shape_eq_inr; [apply shape_eq_sym, S0|repeat split; assumption]|]. intros j' Hj' Rj. destruct S0 as (_ & W0 & W1 & W2). rewrite W1 in Hj'.
  apply along0_near; [repeat split; assumption|]. intros i' Hi' Ri. apply H; repeat split; assumption.
Qed.
Lemma variance_near win vp i j k c : inr vp i j k -> (forall i' j' k', inr vp i' j' k' -> in_window win i j k i' j' k' -> av vp i' j' k' = c) ->
  av (window_variance (uniform_filter win) vp) i j k = 0.
Proof.
  intros Hi H. rewrite variance_at by exact Hi. cbn [av sqa amap].
  rewrite (uniform_near win vp i j k c Hi H). rewrite (uniform_near win (sqa vp) i j k (c * c) Hi); [ring|].
  intros i' j' k' Hi' W. cbn [av sqa amap]. rewrite (H i' j' k' Hi' W). reflexivity.
Qed.
(** ---- the gradient sizes ---- *)
Definition varies_along (axis : nat) (a : garr) : Prop := exists i j k i' j' k', inr a i j k /\ inr a i' j' k' /\
  (axis <> 0%nat -> i = i') /\ (axis <> 1%nat -> j = j') /\ (axis <> 2%nat -> k = k') /\ av a i j k <> av a i' j' k'.
Lemma const_varies axis a : const_along axis a <-> ~ varies_along axis a.
Proof.
  split.
  - intros C (i & j & k & i' & j' & k' & H & H' & A0 & A1 & A2 & N). apply N, C; assumption.
  - intros N i j k i' j' k' H H' A0 A1 A2. destruct (Req_dec (av a i j k) (av a i' j' k')) as [E|E]; [exact E|]. exfalso. apply N. exists i, j, k, i', j', k'. tauto.
Qed.
Definition sees_change (win : list R) (vp : garr) : Prop := exists axis, (axis < 3)%nat /\ 2 <= nth axis win 0 /\ varies_along axis vp.
Lemma flat_iff win vp : flat win vp <-> ~ sees_change win vp.
Proof.
  unfold flat, needs_const, sees_change. split.
  - intros [[F0 F1] F2] (axis & L & W & V). destruct axis as [|[|[|]]]; [|
      |
      |lia]; (apply (proj1 (const_varies _ vp)) in V; [exact V|auto]).
  - intros N. repeat split; intros W; apply const_varies; intros V; apply N; [exists 0%nat|exists 1%nat|exists 2%nat]; (split; [lia|]; split; assumption).
Qed.
Lemma gradient_sizes win vp grad : positive_shape vp -> 0 < grad -> sees_change win vp ->
  exists s, gradient_sizing (uniform_filter win) vp grad = SzOk s /\ shape_eq s vp /\
    (forall i j k, inr vp i j k -> grad / (11 / 10) <= av s i j k <= 10 * grad) /\
    (forall i j k c, inr vp i j k -> (forall i' j' k', inr vp i' j' k' -> in_window win i j k i' j' k' -> av vp i' j' k' = c) -> av s i j k = 10 * grad).
Proof.
  intros P G C. pose proof (variance_shape win vp) as Sh. set (w := window_variance (uniform_filter win) vp) in *.
  assert (positive_shape w) as Pw by (apply (shape_pos vp); [apply shape_eq_sym, Sh|exact P]).
  assert (forall i j k, inr w i j k -> 0 <= av w i j k) as NN by (intros i j k Hi; apply variance_nonneg; [exact P|eapply shape_eq_inr; [exact Sh|exact Hi]]).
  assert (0 < amax w) as MX.
  { destruct (amax_attained w Pw) as (i & j & k & Hi & E). pose proof (NN i j k Hi). assert (amax w <> 0); [|lra]. intros Z. apply (variance_zero_iff win vp P) in Z. apply flat_iff in Z. exact (Z C). }
  destruct (gradient_band w grad Pw G NN MX) as (s & E & Ss & B & T). exists s. split.
  { unfold gradient_sizing. rewrite (proj2 (Reqb_false grad 0)), (proj2 (Rltb_false grad 0)) by lra. exact E. }
  split; [eapply shape_eq_trans; eassumption|]. split.
  - intros i j k Hi. apply B. eapply shape_eq_inr; [apply shape_eq_sym, Sh|exact Hi].
  - intros i j k c Hi H. assert (inr w i j k) as Hw by (eapply shape_eq_inr; [apply shape_eq_sym, Sh|exact Hi]). apply T; [exact Hw|].
    pose proof (variance_near win vp i j k c Hi H) as Z. fold w in Z. rewrite Z. destruct (amin_attained w Pw) as (a & b & d & Ha & E'). pose proof (NN a b d Ha). pose proof (amin_le w i j k Hw). lra.
Qed.
Lemma gradient_sizes_fail win vp grad : positive_shape vp -> 0 < grad -> (gradient_sizing (uniform_filter win) vp grad = SzNonFinite <-> ~ sees_change win vp).
Proof.
  intros P G. split.
  - intros E C. destruct (gradient_sizes win vp grad P G C) as (s & E' & _). congruence.
  - intros N. apply flat_iff in N. apply (variance_zero_iff win vp P) in N. unfold gradient_sizing. rewrite (proj2 (Reqb_false grad 0)), (proj2 (Rltb_false grad 0)) by lra.
    unfold gradient_of_variance. rewrite N. rewrite (proj2 (Reqb_true 0 0)) by reflexivity. reflexivity.
Qed.
