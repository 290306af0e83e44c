(** Facts about the interpolant. *)
From Coq Require Import List Reals Arith Bool Lia Lra.
From Verif Require Import Model.Base Model.FastHJ Model.Sizing Model.Interp Spec.Interp Proofs.ListAux.
Import ListNotations.
Local Open Scope R_scope.

(** count_lt of a sorted vector: entries below the count are smaller than x, the others are not *)
Lemma count_lt_spec : forall g x, (forall i j, (i < j < length g)%nat -> nth i g 0 < nth j g 0) ->
  (count_lt g x <= length g)%nat /\
  (forall i, (i < count_lt g x)%nat -> nth i g 0 < x) /\
  (forall i, (count_lt g x <= i < length g)%nat -> x <= nth i g 0).
Proof.
  intros g x. unfold count_lt. induction g as [|a g IH]; intros HS; cbn [filter length].
  - repeat split; intros; cbn in *; lia.
  - destruct IH as (H1 & H2 & H3).
    { intros i j Hij. apply (HS (S i) (S j)). cbn. lia. }
    destruct (Rltb a x) eqn:E.
    + apply Rltb_true in E. cbn [length]. repeat split.
      * lia.
      * intros [|i] Hi; [exact E|]. cbn. apply H2. lia.
      * intros [|i] Hi; [lia|]. cbn. apply H3. lia.
    + apply Rltb_false in E.
      assert (filter (fun b => Rltb b x) g = []) as HN.
      { apply (proj1 (length_zero_iff_nil _)).
        destruct (Nat.eq_dec (length (filter (fun b => Rltb b x) g)) 0) as [Z|NZ]; [exact Z|].
        assert (0 < length (filter (fun b => Rltb b x) g))%nat as HP by lia.
        assert (length g > 0)%nat by lia.
        specialize (H2 0%nat HP). specialize (HS 0%nat 1%nat). cbn in HS. assert (a < nth 0 g 0) by (apply HS; lia). lra. }
      rewrite HN in *. cbn [length] in *. repeat split; [lia|intros; lia|].
      intros [|i] Hi; cbn; [lra|]. apply H3. lia.
Qed.

Section Axis.
Variable g : list R.
Hypothesis HA : is_axis g.
Let n := length g.

Lemma ax_lt : forall i j, (i < j < n)%nat -> nth i g 0 < nth j g 0.
Proof. exact (proj2 HA). Qed.
Lemma ax_le : forall i j, (i <= j < n)%nat -> nth i g 0 <= nth j g 0.
Proof. intros i j H. destruct (Nat.eq_dec i j) as [->|]; [lra|]. left. apply ax_lt. lia. Qed.
Lemma ax_two : (2 <= n)%nat.
Proof. exact (proj1 HA). Qed.

Lemma cell_range : forall x, (S (cell_of g x) < n)%nat.
Proof. intros. pose proof ax_two. unfold cell_of. fold n. lia. Qed.
Lemma cell_upper : forall x, (cell_of g x < n - 2)%nat -> x <= nth (S (cell_of g x)) g 0.
Proof.
  intros x H. destruct (count_lt_spec g x ax_lt) as (H1 & H2 & H3). apply H3. unfold cell_of in *. pose proof ax_two. unfold n in *. lia.
Qed.
Lemma cell_lower : forall x, (0 < cell_of g x)%nat -> nth (cell_of g x) g 0 < x.
Proof.
  intros x H. destruct (count_lt_spec g x ax_lt) as (H1 & H2 & H3). apply H2. unfold cell_of in *. lia.
Qed.
Lemma cell_inside : forall x, nth 0 g 0 <= x <= nth (n - 1) g 0 -> nth (cell_of g x) g 0 <= x <= nth (S (cell_of g x)) g 0.
Proof.
  intros x Hx. pose proof ax_two. pose proof (cell_range x). split.
  - destruct (Nat.eq_dec (cell_of g x) 0) as [->|]; [lra|]. left. apply cell_lower. lia.
  - destruct (Nat.eq_dec (cell_of g x) (n - 2)) as [->|].
    + replace (S (n - 2)) with (n - 1)%nat by lia. lra.
    + apply cell_upper. lia.
Qed.

Definition lerp (v : nat -> R) (i : nat) (x : R) : R := (1 - weight g i x) * v i + weight g i x * v (S i).
Lemma lerp_slope : forall v i x y, (S i < n)%nat -> lerp v i y - lerp v i x = (y - x) * ((v (S i) - v i) / (nth (S i) g 0 - nth i g 0)).
Proof. intros v i x y H. pose proof (ax_lt i (S i) ltac:(lia)). unfold lerp, weight. field. lra. Qed.
Lemma lerp_left : forall v i, (S i < n)%nat -> lerp v i (nth i g 0) = v i.
Proof. intros v i H. pose proof (ax_lt i (S i) ltac:(lia)). unfold lerp, weight. field. lra. Qed.
Lemma lerp_right : forall v i, (S i < n)%nat -> lerp v i (nth (S i) g 0) = v (S i).
Proof. intros v i H. pose proof (ax_lt i (S i) ltac:(lia)). unfold lerp, weight. field. lra. Qed.

(** any closed cell that contains x gives the same value *)
Lemma cell_unique : forall v k x, (S k < n)%nat -> nth k g 0 <= x <= nth (S k) g 0 -> lerp v (cell_of g x) x = lerp v k x.
Proof.
  intros v k x Hk Hx. pose proof (cell_range x) as Hc. set (c := cell_of g x) in *.
  destruct (Nat.lt_trichotomy c k) as [H | [H | H]].
  - assert (x <= nth (S c) g 0) as H1 by (apply cell_upper; fold c; lia).
    pose proof (ax_le (S c) k ltac:(lia)) as H2.
    assert (S c = k).
    { destruct (Nat.eq_dec (S c) k) as [E|E]; [exact E|]. pose proof (ax_lt (S c) k ltac:(lia)). lra. }
    clearbody c. subst k. assert (x = nth (S c) g 0) as -> by lra. rewrite lerp_right, lerp_left by lia. reflexivity.
  - rewrite H. reflexivity.
  - assert (nth c g 0 < x) as H1 by (apply cell_lower; fold c; lia).
    pose proof (ax_le (S k) c ltac:(lia)). lra.
Qed.
Lemma lerp_node : forall v k, (k < n)%nat -> lerp v (cell_of g (nth k g 0)) (nth k g 0) = v k.
Proof.
  intros v k Hk. pose proof ax_two. destruct (Nat.eq_dec (S k) n) as [E|E].
  - destruct k as [|k]; [lia|]. rewrite (cell_unique v k); [apply lerp_right; lia|lia|]. split; [apply ax_le; lia|lra].
  - rewrite (cell_unique v k); [apply lerp_left; lia|lia|]. split; [lra|apply ax_le; lia].
Qed.
Lemma lerp_bounds : forall v lo hi x, nth 0 g 0 <= x <= nth (n - 1) g 0 -> (forall i, (i < n)%nat -> lo <= v i <= hi) ->
  lo <= lerp v (cell_of g x) x <= hi.
Proof.
  intros v lo hi x Hx Hv. pose proof (cell_range x) as Hc. pose proof (cell_inside x Hx) as Hi. set (c := cell_of g x) in *.
  pose proof (Hv c ltac:(lia)). pose proof (Hv (S c) ltac:(lia)). pose proof (ax_lt c (S c) ltac:(lia)) as Hlt.
  assert (0 <= weight g c x <= 1) as [W0 W1].
  { unfold weight. split.
    - apply Rmult_le_pos; [lra|]. left. apply Rinv_0_lt_compat. lra.
    - apply (Rmult_le_reg_r (nth (S c) g 0 - nth c g 0)); [lra|]. unfold Rdiv. rewrite Rmult_assoc, Rinv_l by lra. lra. }
  unfold lerp. split; nra.
Qed.

Variable L : R.
Lemma lerp_lip_cell : forall v i x y, (S i < n)%nat -> Rabs (v (S i) - v i) <= L * (nth (S i) g 0 - nth i g 0) ->
  Rabs (lerp v i y - lerp v i x) <= L * Rabs (y - x).
Proof.
  intros v i x y Hi HL. rewrite lerp_slope by exact Hi. rewrite Rabs_mult. rewrite Rmult_comm. pose proof (ax_lt i (S i) ltac:(lia)) as Hlt.
  apply Rmult_le_compat_r; [apply Rabs_pos|]. unfold Rdiv. rewrite Rabs_mult, (Rabs_right (/ _)).
  - apply (Rmult_le_reg_r (nth (S i) g 0 - nth i g 0)); [lra|]. rewrite Rmult_assoc, Rinv_l by lra. lra.
  - apply Rle_ge. left. apply Rinv_0_lt_compat. lra.
Qed.
Lemma cell_mono : forall x y, x <= y -> (cell_of g x <= cell_of g y)%nat.
Proof.
  intros x y H. destruct (Nat.le_gt_cases (cell_of g x) (cell_of g y)) as [|E]; [assumption|exfalso].
  pose proof (cell_range x). pose proof (cell_lower x ltac:(lia)). pose proof (cell_upper y ltac:(lia)).
  pose proof (ax_le (S (cell_of g y)) (cell_of g x) ltac:(lia)). lra.
Qed.
Lemma lerp_lip_le : forall v, (forall i, (S i < n)%nat -> Rabs (v (S i) - v i) <= L * (nth (S i) g 0 - nth i g 0)) ->
  forall d x y, (cell_of g y - cell_of g x <= d)%nat -> x <= y ->
  Rabs (lerp v (cell_of g y) y - lerp v (cell_of g x) x) <= L * (y - x).
Proof.
  intros v Hv. induction d as [|d IH]; intros x y Hd Hxy.
  - pose proof (cell_mono x y Hxy). assert (cell_of g y = cell_of g x) as -> by lia.
    pose proof (lerp_lip_cell v (cell_of g x) x y (cell_range x) (Hv _ (cell_range x))) as E. rewrite (Rabs_right (y - x)) in E by lra. exact E.
  - pose proof (cell_mono x y Hxy) as Hm. destruct (Nat.eq_dec (cell_of g y) (cell_of g x)) as [E|E]; [apply IH; [lia|assumption]|].
    pose proof (cell_range y) as Hy. set (c := cell_of g y) in *. set (m := nth c g 0).
    assert (m < y) as Hmy by (apply cell_lower; fold c; lia).
    assert (x <= m) as Hxm.
    { apply Rle_trans with (nth (S (cell_of g x)) g 0); [apply cell_upper; lia|apply ax_le; lia]. }
    assert (S (cell_of g m) <= c)%nat as Hcm.
    { destruct (Nat.le_gt_cases (S (cell_of g m)) c) as [|Q]; [assumption|exfalso].
      assert (0 < cell_of g m)%nat as Q1 by lia. pose proof (cell_lower m Q1) as Q2. pose proof (cell_range m).
      pose proof (ax_le c (cell_of g m) ltac:(lia)). unfold m in *. lra. }
    replace (lerp v c y - lerp v (cell_of g x) x) with ((lerp v c y - lerp v c m) + (lerp v (cell_of g m) m - lerp v (cell_of g x) x)).
    2: { assert (lerp v (cell_of g m) m = lerp v c m) as ->; [|ring]. apply cell_unique; [exact Hy|]. unfold m. split; [lra|apply ax_le; lia]. }
    eapply Rle_trans; [apply Rabs_triang|].
    pose proof (lerp_lip_cell v c m y Hy (Hv _ Hy)) as E1. rewrite (Rabs_right (y - m)) in E1 by lra.
    assert (Rabs (lerp v (cell_of g m) m - lerp v (cell_of g x) x) <= L * (m - x)) as E2 by (apply IH; [lia|exact Hxm]). lra.
Qed.
Lemma lerp_lip : forall v, (forall i, (S i < n)%nat -> Rabs (v (S i) - v i) <= L * (nth (S i) g 0 - nth i g 0)) ->
  forall x y, Rabs (lerp v (cell_of g y) y - lerp v (cell_of g x) x) <= L * Rabs (y - x).
Proof.
  intros v Hv x y. destruct (Rle_dec x y) as [H|H].
  - rewrite (Rabs_right (y - x)) by lra. eapply lerp_lip_le; [exact Hv|reflexivity|exact H].
  - rewrite Rabs_minus_sym, (Rabs_minus_sym y x), (Rabs_right (x - y)) by lra. eapply lerp_lip_le; [exact Hv|reflexivity|lra].
Qed.
End Axis.

Lemma interp_cons : forall g gs f x0 x, interp (g :: gs) f (x0 :: x) = lerp g (fun i => interp gs (fun k => f (i :: k)) x) (cell_of g x0) x0.
Proof. reflexivity. Qed.

Lemma interp_node : forall gs, Forall is_axis gs -> forall ks f, in_range gs ks -> interp gs f (node_at gs ks) = f ks.
Proof.
  induction gs as [|g gs IH]; intros HA ks f HR; inversion HR; subst; [reflexivity|].
  inversion HA; subst. cbn [node_at]. rewrite interp_cons.
  rewrite (lerp_node g) by assumption. apply (IH ltac:(assumption) ks0 (fun k0 => f (k :: k0))). assumption.
Qed.

Lemma interp_bounds : forall gs, Forall is_axis gs -> forall f x lo hi, covered gs x ->
  (forall ks, in_range gs ks -> lo <= f ks <= hi) -> lo <= interp gs f x <= hi.
Proof.
  induction gs as [|g gs IH]; intros HA f x lo hi HC HV; inversion HC; subst; [apply HV; constructor|].
  inversion HA; subst. rewrite interp_cons. apply lerp_bounds; [assumption|assumption|].
  intros i Hi. apply IH; [assumption|assumption|]. intros ks Hk. apply HV. constructor; assumption.
Qed.

Lemma interp_linear : forall gs f1 f2 x, interp gs f1 x - interp gs f2 x = interp gs (fun k => f1 k - f2 k) x.
Proof.
  induction gs as [|g gs IH]; intros f1 f2 [|x0 x]; cbn [interp]; try reflexivity.
  rewrite <- (IH (fun k => f1 (cell_of g x0 :: k)) (fun k => f2 (cell_of g x0 :: k))).
  rewrite <- (IH (fun k => f1 (S (cell_of g x0) :: k)) (fun k => f2 (S (cell_of g x0) :: k))). ring.
Qed.
Lemma interp_close : forall gs, Forall is_axis gs -> forall f1 f2 x e, covered gs x ->
  (forall ks, in_range gs ks -> Rabs (f1 ks - f2 ks) <= e) -> Rabs (interp gs f1 x - interp gs f2 x) <= e.
Proof.
  intros gs HA f1 f2 x e HC HV. rewrite interp_linear. apply Rabs_le. apply interp_bounds; [assumption|assumption|].
  intros ks Hk. specialize (HV ks Hk). revert HV. unfold Rabs. destruct Rcase_abs; lra.
Qed.

(** neighbouring nodes along axis q differ by at most L_q times their distance *)
Lemma interp_lip : forall gs, Forall is_axis gs -> forall Ls f x y, covered gs x -> covered gs y -> length Ls = length gs ->
  step_bounds gs Ls f -> Rabs (interp gs f x - interp gs f y) <= weighted_l1 Ls x y.
Proof.
  induction gs as [|g gs IH]; intros HA Ls f x y HX HY HL HB; inversion HX as [|? ? x0' x' Hx0 HX']; subst; inversion HY as [|? ? y0 y' Hy0 HY']; subst.
  - destruct Ls; [|discriminate]. cbn. rewrite Rminus_diag_eq, Rabs_R0 by reflexivity. lra.
  - destruct Ls as [|L Ls]; [discriminate|]. inversion HA as [|? ? HAg HAgs]; subst. destruct HB as [HB1 HB2]. cbn [weighted_l1].
    assert (Rabs (interp (g :: gs) f (x0' :: x') - interp (g :: gs) f (y0 :: x')) <= L * Rabs (x0' - y0)) as E1.
    { rewrite !interp_cons. apply lerp_lip; [assumption|]. intros i Hi. apply interp_close; [assumption|assumption|].
      intros ks Hk. apply HB1; assumption. }
    assert (Rabs (interp (g :: gs) f (y0 :: x') - interp (g :: gs) f (y0 :: y')) <= weighted_l1 Ls x' y') as E2.
    { rewrite !interp_cons.
      replace (lerp g (fun i => interp gs (fun k => f (i :: k)) x') (cell_of g y0) y0 - lerp g (fun i => interp gs (fun k => f (i :: k)) y') (cell_of g y0) y0)
        with (lerp g (fun i => interp gs (fun k => f (i :: k)) x' - interp gs (fun k => f (i :: k)) y') (cell_of g y0) y0) by (unfold lerp; ring).
      apply Rabs_le. apply lerp_bounds; [assumption|assumption|]. intros i Hi.
      assert (Rabs (interp gs (fun k => f (i :: k)) x' - interp gs (fun k => f (i :: k)) y') <= weighted_l1 Ls x' y') as E.
      { apply IH; try assumption. cbn in HL. lia. apply HB2. exact Hi. }
      revert E. unfold Rabs. destruct Rcase_abs; lra. }
    replace (interp (g :: gs) f (x0' :: x') - interp (g :: gs) f (y0 :: y')) with
      ((interp (g :: gs) f (x0' :: x') - interp (g :: gs) f (y0 :: x')) + (interp (g :: gs) f (y0 :: x') - interp (g :: gs) f (y0 :: y'))) by ring.
    eapply Rle_trans; [apply Rabs_triang|]. lra.
Qed.

Lemma multilinear_cons : forall g gs f k ks x0 x,
  multilinear (g :: gs) f (k :: ks) (x0 :: x) =
  (nth (S k) g 0 - x0) / (nth (S k) g 0 - nth k g 0) * multilinear gs (fun c => f (k :: c)) ks x +
  (x0 - nth k g 0) / (nth (S k) g 0 - nth k g 0) * multilinear gs (fun c => f (S k :: c)) ks x.
Proof.
  intros. unfold multilinear. cbn [corners_of_cell]. set (W := nth (S k) g 0 - nth k g 0).
  induction (corners_of_cell ks) as [|c l IH]; cbn [flat_map map fold_right app]; [ring|].
  rewrite IH. cbn [corner_weight]. rewrite Nat.eqb_refl. replace (Nat.eqb (S k) k) with false by (symmetry; apply Nat.eqb_neq; lia).
  fold W. ring.
Qed.
Lemma interp_multilinear : forall gs, Forall is_axis gs -> forall f ks x, in_cell gs ks x -> interp gs f x = multilinear gs f ks x.
Proof.
  induction gs as [|g gs IH]; intros HA f ks x HC; inversion HC; subst.
  - cbn. ring.
  - inversion HA as [|? ? HAg HAgs]; subst. rewrite interp_cons, multilinear_cons.
    rewrite (cell_unique g HAg _ k) by assumption. unfold lerp. rewrite !(IH HAgs _ ks0 xs) by assumption.
    unfold weight. pose proof (proj2 HAg k (S k) ltac:(lia)). field. lra.
Qed.

Lemma increasing_axis : forall g, increasing g = true -> (2 <= length g)%nat -> is_axis g.
Proof.
  intros g HI HL. split; [exact HL|]. clear HL. induction g as [|a g IH]; intros i j Hij; [cbn in Hij; lia|].
  destruct g as [|b t]; [cbn in Hij; lia|]. cbn [increasing] in HI. apply andb_true_iff in HI as [Hab HI]. apply Rltb_true in Hab.
  specialize (IH HI). destruct j as [|j]; [lia|]. destruct i as [|i].
  - destruct j as [|j]; [exact Hab|]. cbn [nth]. apply Rlt_trans with b; [exact Hab|]. apply (IH 0%nat (S j)). cbn in *. lia.
  - apply (IH i j). cbn in *. lia.
Qed.
Lemma axis_increasing : forall g, (forall i, (S i < length g)%nat -> nth i g 0 < nth (S i) g 0) -> increasing g = true.
Proof.
  induction g as [|a g IH]; intros H; [reflexivity|]. destruct g as [|b t]; [reflexivity|]. cbn [increasing].
  apply andb_true_iff. split; [apply Rltb_true; apply (H 0%nat); cbn; lia|]. apply IH. intros i Hi. apply (H (S i)). cbn in *. lia.
Qed.
