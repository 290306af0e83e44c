(** Index arithmetic of the limiter: ind2sub/sub2ind, the double-precision plane index, the stencil. *)
From Coq Require Import List ZArith Reals Lia Lra Psatz.
From Flocq Require Import Core.
From Verif Require Import Model.Base Model.FastHJ Spec.Grid.
Import ListNotations.
Local Open Scope Z_scope.

Local Instance flt64_valid : Valid_exp (FLT_exp (-1074) 53).
Proof. apply FLT_exp_valid. reflexivity. Qed.

Lemma rnd64_is_rounding : is_rounding rnd64 (generic_format radix2 (FLT_exp (-1074) 53)).
Proof.
  unfold is_rounding, rnd64. split; [|split].
  - intros x y H. apply round_le; auto with typeclass_instances.
  - intros x. apply generic_format_round; auto with typeclass_instances.
  - split.
    + intros x H. apply round_generic; auto with typeclass_instances.
    + apply generic_format_0.
Qed.

Lemma id_is_rounding : is_rounding (fun x => x) (fun _ => True).
Proof. unfold is_rounding; auto. Qed.

(** Integers times a power of two with at most 53 bits are binary64 numbers. *)
Lemma format_scaled (m s : Z) : Z.abs m < 2 ^ 53 -> 0 <= s <= 1074 ->
  generic_format radix2 (FLT_exp (-1074) 53) (IZR m * bpow radix2 (- s)).
Proof.
  intros Hm Hs. apply generic_format_FLT.
  apply (FLT_spec _ _ _ _ (Float radix2 m (- s))).
  - unfold F2R; simpl. reflexivity.
  - simpl. exact Hm.
  - simpl. lia.
Qed.

Lemma format_int (m : Z) : Z.abs m < 2 ^ 53 -> generic_format radix2 (FLT_exp (-1074) 53) (IZR m).
Proof.
  intros H. replace (IZR m) with (IZR m * bpow radix2 (- 0))%R by (simpl; ring).
  apply format_scaled; [exact H|lia].
Qed.

Lemma plane_index_exact (q a r : Z) :
  0 <= q -> 1 <= a <= 2 ^ 31 -> 1 <= r <= a -> q * a + r <= 2 ^ 31 ->
  Zceil (rnd64 (IZR (q * a + r) / IZR a)) = q + 1.
Proof.
  intros Hq Ha Hr Hb.
  assert (Ha' : (0 < IZR a)%R) by (apply IZR_lt; lia).
  assert (Hqb : q < 2 ^ 31).
  { assert (q <= q * a) by nia. lia. }
  destruct rnd64_is_rounding as (Hmono & _ & Hid & _).
  set (x := (IZR (q * a + r) / IZR a)%R).
  assert (Hxup : (x <= IZR (q + 1))%R).
  { unfold x. apply Rmult_le_reg_r with (IZR a); [exact Ha'|].
    unfold Rdiv. rewrite Rmult_assoc, Rinv_l by lra. rewrite Rmult_1_r.
    rewrite <- mult_IZR. apply IZR_le. nia. }
  (* smallest power of two above a *)
  set (s := Z.log2_up a).
  assert (Hs : a <= 2 ^ s /\ 2 ^ s < 2 * a).
  { unfold s. destruct (Z.eq_dec a 1) as [->|Hne]; [cbn; lia|].
    destruct (Z.log2_up_spec a ltac:(lia)) as [H1 H2].
    split; [exact H2|].
    replace (Z.log2_up a) with (Z.succ (Z.pred (Z.log2_up a))) by lia.
    rewrite Z.pow_succ_r; [lia|]. assert (0 < Z.log2_up a) by (apply Z.log2_up_pos; lia). lia. }
  assert (Hs0 : 0 <= s) by apply Z.log2_up_nonneg.
  assert (Hs1 : s <= 1074).
  { unfold s. apply Z.log2_up_le_pow2; [lia|].
    apply Z.le_trans with (2^31); [lia|]. apply Z.pow_le_mono_r; lia. }
  set (y := (IZR (q * 2 ^ s + 1) * bpow radix2 (- s))%R).
  assert (Hpow : bpow radix2 s = IZR (2 ^ s)).
  { rewrite <- IZR_Zpower by exact Hs0. reflexivity. }
  assert (Hpos : (0 < bpow radix2 s)%R) by apply bpow_gt_0.
  assert (Hy : generic_format radix2 (FLT_exp (-1074) 53) y).
  { unfold y. apply format_scaled; [|lia].
    assert (q * 2 ^ s + 1 <= q * (2 * a) + 1) by nia. 
    assert (q * a <= 2^31) by lia.
    rewrite Z.abs_eq by nia. 
    assert (q * (2 * a) + 1 < 2 ^ 53) by lia. lia. }
  assert (Hyq : (IZR q < y)%R).
  { unfold y. rewrite bpow_opp. apply Rmult_lt_reg_r with (bpow radix2 s); [exact Hpos|].
    rewrite Rmult_assoc, Rinv_l by lra. rewrite Rmult_1_r, Hpow, <- mult_IZR. apply IZR_lt. lia. }
  assert (Hyx : (y <= x)%R).
  { unfold y, x. rewrite bpow_opp.
    apply Rmult_le_reg_r with (bpow radix2 s * IZR a)%R; [nra|].
    replace (IZR (q * 2 ^ s + 1) * / bpow radix2 s * (bpow radix2 s * IZR a))%R
      with (IZR (q * 2 ^ s + 1) * IZR a)%R by (field; lra).
    replace (IZR (q * a + r) / IZR a * (bpow radix2 s * IZR a))%R
      with (IZR (q * a + r) * bpow radix2 s)%R by (field; lra).
    rewrite Hpow, <- !mult_IZR. apply IZR_le.
    destruct Hs as [Hs2 Hs3]. nia. }
  apply Zceil_imp. replace (q + 1 - 1) with q by lia. split.
  - apply Rlt_le_trans with y; [exact Hyq|].
    rewrite <- (Hid y Hy). apply Hmono. exact Hyx.
  - rewrite <- (Hid (IZR (q + 1))).
    + apply Hmono. exact Hxup.
    + apply format_int. lia.
Qed.

(** one-based (i,j,k) -> index -> back *)
Lemma ind2sub_sub2ind (d0 d1 d2 i j k : Z) :
  1 <= i <= d0 -> 1 <= j <= d1 -> 1 <= k <= d2 -> d0 * d1 * d2 <= 2 ^ 31 ->
  ind2sub (sub2ind i j k d0 d1) d0 d1 = (i, j, k).
Proof.
  intros Hi Hj Hk Hb.
  unfold ind2sub, sub2ind, plane_index.
  set (r := (j - 1) * d0 + i).
  assert (Hr : 1 <= r <= d0 * d1) by (unfold r; nia).
  assert (Hidx : (k - 1) * (d0 * d1) + r <= 2 ^ 31) by nia.
  replace (r + (k - 1) * (d0 * d1)) with ((k - 1) * (d0 * d1) + r) by ring.
  rewrite plane_index_exact; [|lia|split; [nia|apply Z.le_trans with (d0 * d1 * d2); [nia|exact Hb]]|lia|lia].
  replace (k - 1 + 1) with k by lia.
  replace ((k - 1) * (d0 * d1) + r - (k - 1) * d0 * d1) with r by ring.
  assert (Hq : Z.quot (r - 1) d0 = j - 1).
  { rewrite Z.quot_div_nonneg by lia. unfold r.
    replace ((j - 1) * d0 + i - 1) with (i - 1 + (j - 1) * d0) by ring.
    rewrite Z.div_add by lia. rewrite Z.div_small by lia. lia. }
  rewrite Hq.
  replace (r - (1 + (j - 1) - 1) * d0) with i by (unfold r; ring).
  replace (1 + (j - 1)) with j by lia. reflexivity.
Qed.

Lemma sub2ind_ind2sub (d0 d1 d2 idx : Z) :
  0 < d0 -> 0 < d1 -> 0 < d2 -> d0 * d1 * d2 <= 2 ^ 31 -> 1 <= idx <= d0 * d1 * d2 ->
  let '(i, j, k) := ind2sub idx d0 d1 in
  1 <= i <= d0 /\ 1 <= j <= d1 /\ 1 <= k <= d2 /\ sub2ind i j k d0 d1 = idx.
Proof.
  intros H0 H1 H2 Hb Hidx.
  set (z := idx - 1).
  set (i := z mod d0 + 1). set (j := (z / d0) mod d1 + 1). set (k := z / d0 / d1 + 1).
  assert (Hi : 1 <= i <= d0) by (unfold i; pose proof (Z.mod_pos_bound z d0); lia).
  assert (Hj : 1 <= j <= d1) by (unfold j; pose proof (Z.mod_pos_bound (z/d0) d1); lia).
  assert (Hk : 1 <= k <= d2).
  { unfold k. rewrite Z.div_div by lia. split.
    - pose proof (Z.div_pos z (d0 * d1)). unfold z in *. nia.
    - assert (z / (d0 * d1) < d2); [|lia]. apply Z.div_lt_upper_bound; [nia|]. unfold z. nia. }
  assert (Hs : sub2ind i j k d0 d1 = idx).
  { unfold sub2ind, i, j, k. pose proof (Z.div_mod z d0 ltac:(lia)).
    pose proof (Z.div_mod (z / d0) d1 ltac:(lia)). unfold z in *. nia. }
  rewrite <- Hs. rewrite (ind2sub_sub2ind d0 d1 d2) by lia. auto.
Qed.

(** zero-based versions *)
Lemma pos_sub2ind (d0 d1 i j k : nat) :
  Z.of_nat (pos d0 d1 (i, j, k)) + 1 =
  sub2ind (Z.of_nat i + 1) (Z.of_nat j + 1) (Z.of_nat k + 1) (Z.of_nat d0) (Z.of_nat d1).
Proof. unfold pos, sub2ind. nia. Qed.

Lemma pos_lt (d0 d1 d2 : nat) (p : node) : in_grid d0 d1 d2 p -> (pos d0 d1 p < d0 * d1 * d2)%nat.
Proof. destruct p as [[i j] k]. unfold in_grid, pos. intros (Hi & Hj & Hk). 
  assert (j + d1 * k < d1 * d2)%nat by nia. nia. Qed.

Lemma pos_inj (d0 d1 d2 : nat) (p q : node) :
  in_grid d0 d1 d2 p -> in_grid d0 d1 d2 q -> pos d0 d1 p = pos d0 d1 q -> p = q.
Proof.
  destruct p as [[i j] k], q as [[i' j'] k']. unfold in_grid, pos. intros (Hi & Hj & Hk) (Hi' & Hj' & Hk') H.
  assert (i = i').
  { rewrite <- (Nat.mod_small i d0), <- (Nat.mod_small i' d0) by lia.
    rewrite <- (Nat.mod_add i (j + d1 * k) d0), <- (Nat.mod_add i' (j' + d1 * k') d0) by lia.
    f_equal. lia. }
  subst i'.
  assert (H2 : (j + d1 * k = j' + d1 * k')%nat) by nia.
  assert (j = j').
  { rewrite <- (Nat.mod_small j d1), <- (Nat.mod_small j' d1) by lia.
    rewrite <- (Nat.mod_add j k d1), <- (Nat.mod_add j' k' d1) by lia. f_equal. lia. }
  subst j'. assert (k = k') by nia. subst. reflexivity.
Qed.

Lemma pos_surj (d0 d1 d2 a : nat) : (a < d0 * d1 * d2)%nat -> exists p, in_grid d0 d1 d2 p /\ pos d0 d1 p = a.
Proof.
  intros H. assert (0 < d0 /\ 0 < d1 /\ 0 < d2)%nat as (P0 & P1 & P2) by (destruct d0, d1, d2; lia).
  exists (a mod d0, (a / d0) mod d1, a / d0 / d1)%nat. split.
  - unfold in_grid. split; [apply Nat.mod_upper_bound; lia|].
    split; [apply Nat.mod_upper_bound; lia|].
    rewrite Nat.div_div by lia. apply Nat.div_lt_upper_bound; lia.
  - unfold pos. pose proof (Nat.div_mod a d0 ltac:(lia)). pose proof (Nat.div_mod (a/d0) d1 ltac:(lia)). nia.
Qed.

(** the six clamped neighbours in the code's order, as zero-based nodes *)
Definition nbr_nodes (d0 d1 d2 : nat) (p : node) : list node :=
  let '(i, j, k) := p in
  [ (i, Nat.min (j + 1) (d1 - 1), k); (i, (j - 1)%nat, k);
    (Nat.min (i + 1) (d0 - 1), j, k); ((i - 1)%nat, j, k);
    (i, j, Nat.min (k + 1) (d2 - 1)); (i, j, (k - 1)%nat) ].

Lemma stencil_spec (d0 d1 d2 : nat) (p : node) :
  in_grid d0 d1 d2 p -> Z.of_nat d0 * Z.of_nat d1 * Z.of_nat d2 <= 2 ^ 31 ->
  stencil (Z.of_nat d0) (Z.of_nat d1) (Z.of_nat d2) (Z.of_nat (pos d0 d1 p)) =
  map (fun q => Z.of_nat (pos d0 d1 q)) (nbr_nodes d0 d1 d2 p).
Proof.
  destruct p as [[i j] k]. intros (Hi & Hj & Hk) Hb.
  unfold stencil. rewrite pos_sub2ind.
  rewrite (ind2sub_sub2ind _ _ (Z.of_nat d2)) by lia.
  unfold nbr_nodes. cbn [map].
  assert (L : forall x y z (a b c : nat), x = Z.of_nat a + 1 -> y = Z.of_nat b + 1 -> z = Z.of_nat c + 1 ->
    sub2ind x y z (Z.of_nat d0) (Z.of_nat d1) - 1 = Z.of_nat (pos d0 d1 (a, b, c))).
  { intros x y z a b c -> -> ->. rewrite <- pos_sub2ind. lia. }
  repeat (apply f_equal2; [apply L; lia|]).
  reflexivity.
Qed.

Lemma nbr_in_grid (d0 d1 d2 : nat) (p q : node) :
  in_grid d0 d1 d2 p -> In q (nbr_nodes d0 d1 d2 p) -> in_grid d0 d1 d2 q.
Proof.
  destruct p as [[i j] k]. intros (Hi & Hj & Hk) Hq. unfold nbr_nodes in Hq. cbn [In] in Hq.
  decompose [or] Hq; try contradiction; subst q; unfold in_grid; lia.
Qed.

Lemma nbr_dist (d0 d1 d2 : nat) (p q : node) :
  in_grid d0 d1 d2 p -> In q (nbr_nodes d0 d1 d2 p) -> q = p \/ adjacent p q.
Proof.
  destruct p as [[i j] k]. intros (Hi & Hj & Hk) Hq. unfold nbr_nodes in Hq. cbn [In] in Hq.
  unfold adjacent, gdist, adist.
  assert (Hd : forall a b c : nat, a = b -> b = c -> a = c) by congruence.
  decompose [or] Hq; try contradiction; subst q.
  - destruct (Nat.eq_dec j (d1 - 1)); [left; repeat f_equal; lia|right; lia].
  - destruct (Nat.eq_dec j 0); [left; repeat f_equal; lia|right; lia].
  - destruct (Nat.eq_dec i (d0 - 1)); [left; repeat f_equal; lia|right; lia].
  - destruct (Nat.eq_dec i 0); [left; repeat f_equal; lia|right; lia].
  - destruct (Nat.eq_dec k (d2 - 1)); [left; repeat f_equal; lia|right; lia].
  - destruct (Nat.eq_dec k 0); [left; repeat f_equal; lia|right; lia].
Qed.

Lemma adjacent_nbr (d0 d1 d2 : nat) (p q : node) :
  in_grid d0 d1 d2 p -> in_grid d0 d1 d2 q -> adjacent p q -> In q (nbr_nodes d0 d1 d2 p).
Proof.
  destruct p as [[i j] k], q as [[i' j'] k']. intros (Hi & Hj & Hk) (Hi' & Hj' & Hk').
  unfold adjacent, gdist, adist. intros H. unfold nbr_nodes. cbn [In].
  assert (C : (i' = i /\ k' = k /\ j' = j + 1 \/ i' = i /\ k' = k /\ j = j' + 1 \/
           j' = j /\ k' = k /\ i' = i + 1 \/ j' = j /\ k' = k /\ i = i' + 1 \/
           i' = i /\ j' = j /\ k' = k + 1 \/ i' = i /\ j' = j /\ k = k' + 1)%nat).
  { clear -H.
    assert (Z0 : forall a b : nat, (a - b + (b - a) = 0 -> b = a)%nat) by (intros; lia).
    assert (Z1 : forall a b : nat, (a - b + (b - a) = 1 -> b = a + 1 \/ a = b + 1)%nat) by (intros; lia).
    revert H. pose proof (Z0 i i'). pose proof (Z0 j j'). pose proof (Z0 k k').
    pose proof (Z1 i i'). pose proof (Z1 j j'). pose proof (Z1 k k'). clear Z0 Z1.
    generalize dependent (i - i' + (i' - i))%nat. generalize dependent (j - j' + (j' - j))%nat.
    generalize dependent (k - k' + (k' - k))%nat. intros a A0 A1 b B0 B1 c C0 C1 E.
    assert (K : (c = 1 /\ b = 0 /\ a = 0 \/ c = 0 /\ b = 1 /\ a = 0 \/ c = 0 /\ b = 0 /\ a = 1)%nat) by lia.
    destruct K as [(Kc & Kb & Ka)|[(Kc & Kb & Ka)|(Kc & Kb & Ka)]].
    - destruct (C1 Kc); auto 10.
    - destruct (B1 Kb); auto 10.
    - destruct (A1 Ka); auto 10. }
  destruct C as [C|[C|[C|[C|[C|C]]]]]; destruct C as (-> & -> & C).
  - left. repeat f_equal; lia.
  - right; left. repeat f_equal; lia.
  - do 2 right; left. repeat f_equal; lia.
  - do 3 right; left. repeat f_equal; lia.
  - do 4 right; left. repeat f_equal; lia.
  - do 5 right; left. repeat f_equal; lia.
Qed.
