(** The limiter with 32-bit integers agrees with the one with unbounded integers as long as the grid has at most 2^31 - 2 nodes. *)
From Coq Require Import List ZArith Reals Lia Bool.
From Flocq Require Import Core.
From Verif Require Import Model.Base Model.FastHJ Model.Int32 Proofs.ListAux Proofs.GridIndex Proofs.Limgrad.
Import ListNotations.
Local Open Scope Z_scope.

Lemma ck_some z : - 2 ^ 31 <= z <= 2 ^ 31 - 1 -> ck z = Some z.
Proof. intros H. unfold ck, int_ok. rewrite (proj2 (Z.leb_le _ _)), (proj2 (Z.leb_le z _)) by lia. reflexivity. Qed.
Lemma ck_none z : z < - 2 ^ 31 \/ 2 ^ 31 <= z -> ck z = None.
Proof. intros H. unfold ck, int_ok. destruct (Z.leb_spec (- 2 ^ 31) z), (Z.leb_spec z (2 ^ 31 - 1)); try reflexivity. exfalso. lia. Qed.
Lemma iadd_some a b : - 2 ^ 31 <= a + b <= 2 ^ 31 - 1 -> iadd a b = Some (a + b). Proof. apply ck_some. Qed.
Lemma isub_some a b : - 2 ^ 31 <= a - b <= 2 ^ 31 - 1 -> isub a b = Some (a - b). Proof. apply ck_some. Qed.
Lemma imul_some a b : - 2 ^ 31 <= a * b <= 2 ^ 31 - 1 -> imul a b = Some (a * b). Proof. apply ck_some. Qed.

(** sizes of the partial products *)
Lemma small_products d0 d1 d2 i j k : 1 <= i <= d0 -> 1 <= j <= d1 -> 1 <= k <= d2 ->
  0 <= (j - 1) * d0 /\ (j - 1) * d0 + i <= d0 * d1 /\ 1 <= d0 * d1 <= d0 * d1 * d2 /\ 0 <= (k - 1) * (d0 * d1) /\
  (j - 1) * d0 + i + (k - 1) * (d0 * d1) <= d0 * d1 * d2 /\ 0 <= (k - 1) * d0 <= (k - 1) * (d0 * d1) /\ d0 <= d0 * d1 /\ d1 <= d0 * d1 /\ d2 <= d0 * d1 * d2.
Proof.
  intros I J K. assert (A : 1 <= d0 * d1) by nia. assert (B : (j - 1) * d0 + i <= d0 * d1) by nia.
  assert (C : 0 <= (k - 1) * (d0 * d1)) by nia. assert (D : (k - 1) * (d0 * d1) + d0 * d1 <= d0 * d1 * d2).
  { replace ((k - 1) * (d0 * d1) + d0 * d1) with (k * (d0 * d1)) by ring. rewrite (Z.mul_comm (d0 * d1) d2). apply Z.mul_le_mono_nonneg_r; lia. }
  assert (E : d0 <= d0 * d1) by nia. assert (F : d1 <= d0 * d1) by nia.
  repeat split; try lia; try nia.
Qed.
Lemma sub2ind_int d0 d1 d2 i j k : 1 <= i <= d0 -> 1 <= j <= d1 -> 1 <= k <= d2 -> d0 * d1 * d2 <= 2 ^ 31 - 1 ->
  sub2ind_i i j k d0 d1 = Some (sub2ind i j k d0 d1) /\ 1 <= sub2ind i j k d0 d1 <= d0 * d1 * d2.
Proof.
  intros I J K N. destruct (small_products d0 d1 d2 i j k I J K) as (A1 & A2 & A3 & A4 & A5 & A6 & A7 & A8 & A9). unfold sub2ind_i, sub2ind.
  rewrite (isub_some j 1) by lia. cbn [obind]. rewrite imul_some by lia. cbn [obind]. rewrite iadd_some by lia. cbn [obind]. rewrite isub_some by lia. cbn [obind].
  rewrite imul_some by lia. cbn [obind]. rewrite imul_some by lia. cbn [obind]. rewrite iadd_some by lia. split; [reflexivity|lia].
Qed.
Lemma ind2sub_int d0 d1 d2 idx : 0 < d0 -> 0 < d1 -> 0 < d2 -> d0 * d1 * d2 <= 2 ^ 31 - 1 -> 1 <= idx <= d0 * d1 * d2 ->
  ind2sub_i idx d0 d1 = Some (ind2sub idx d0 d1).
Proof.
  intros H0 H1 H2 N Hi. pose proof (sub2ind_ind2sub d0 d1 d2 idx H0 H1 H2 ltac:(lia) Hi) as S. destruct (ind2sub idx d0 d1) as [[i j] k] eqn:E.
  destruct S as (I & J & K & Q). destruct (small_products d0 d1 d2 i j k I J K) as (A1 & A2 & A3 & A4 & A5 & A6 & A7 & A8 & A9).
  unfold ind2sub, plane_index in E. unfold ind2sub_i. rewrite imul_some by lia. cbn [obind]. set (kk := Zceil _) in *. clearbody kk.
  pose proof (f_equal (fun q => fst (fst q)) E) as E1. pose proof (f_equal (fun q => snd (fst q)) E) as E2. pose proof (f_equal snd E) as E3. cbv beta zeta in E1, E2. cbn [fst snd] in E1, E2, E3. clear E. subst kk. unfold sub2ind in Q.
  rewrite ck_some by lia. cbn [obind]. rewrite isub_some by lia. cbn [obind]. rewrite imul_some by lia. cbn [obind].
  assert (R : (k - 1) * d0 * d1 = (k - 1) * (d0 * d1)) by ring. rewrite imul_some by lia. cbn [obind]. rewrite isub_some by lia. cbn [obind]. rewrite isub_some by lia. cbn [obind].
  rewrite E2. rewrite ck_some by lia. cbn [obind]. rewrite isub_some by lia. cbn [obind]. rewrite imul_some by lia. cbn [obind]. rewrite isub_some by lia. cbn [obind].
  rewrite E2 in E1. rewrite E1. reflexivity.
Qed.
Lemma stencil_int d0 d1 d2 a : 0 < d0 -> 0 < d1 -> 0 < d2 -> d0 * d1 * d2 <= 2 ^ 31 - 2 -> 0 <= a < d0 * d1 * d2 ->
  stencil_i d0 d1 d2 a = Some (stencil d0 d1 d2 a).
Proof.
  intros H0 H1 H2 N Ha. unfold stencil_i, stencil. rewrite iadd_some by lia. cbn [obind]. rewrite (ind2sub_int d0 d1 d2) by lia. cbn [obind].
  pose proof (sub2ind_ind2sub d0 d1 d2 (a + 1) H0 H1 H2 ltac:(lia) ltac:(lia)) as S. destruct (ind2sub (a + 1) d0 d1) as [[i j] k].
  destruct S as (I & J & K & _). destruct (small_products d0 d1 d2 i j k I J K) as (_ & _ & A3 & _ & _ & _ & A7 & A8 & A9).
  destruct (sub2ind_int d0 d1 d2 i (Z.min (j + 1) d1) k) as [E1 B1]; [lia|lia|lia|lia|].
  destruct (sub2ind_int d0 d1 d2 i (Z.max (j - 1) 1) k) as [E2 B2]; [lia|lia|lia|lia|].
  destruct (sub2ind_int d0 d1 d2 (Z.min (i + 1) d0) j k) as [E3 B3]; [lia|lia|lia|lia|].
  destruct (sub2ind_int d0 d1 d2 (Z.max (i - 1) 1) j k) as [E4 B4]; [lia|lia|lia|lia|].
  destruct (sub2ind_int d0 d1 d2 i j (Z.min (k + 1) d2)) as [E5 B5]; [lia|lia|lia|lia|].
  destruct (sub2ind_int d0 d1 d2 i j (Z.max (k - 1) 1)) as [E6 B6]; [lia|lia|lia|lia|].
  rewrite (iadd_some j 1) by lia. cbn [obind]. rewrite E1. cbn [obind]. rewrite (isub_some j 1) by lia. cbn [obind]. rewrite E2. cbn [obind].
  rewrite (iadd_some i 1) by lia. cbn [obind]. rewrite E3. cbn [obind]. rewrite (isub_some i 1) by lia. cbn [obind]. rewrite E4. cbn [obind].
  rewrite (iadd_some k 1) by lia. cbn [obind]. rewrite E5. cbn [obind]. rewrite (isub_some k 1) by lia. cbn [obind]. rewrite E6. cbn [obind].
  rewrite !isub_some by lia. reflexivity.
Qed.

Lemma aset_len {A} (l : list A) z x l' : aset_at l z x = Some l' -> length l' = length l.
Proof.
  unfold aset_at. destruct (z <? 0); [discriminate|]. destruct (Nat.ltb_spec (Z.to_nat z) (length l)); [|discriminate]. intros E. injection E as <-. apply upd_length.
Qed.
Section Loop.
Variable rnd : R -> R.
Lemma relax_act g ftol iter s a b s' : relax rnd g ftol iter s a b = Some s' -> length (act s') = length (act s).
Proof.
  unfold relax. destruct (aget (fld s) a); [|discriminate]. destruct (aget (fld s) b); [|discriminate]. cbn [obind].
  assert (K : forall z x, obind (aset_at (fld s) z x) (fun f' => obind (aset_at (act s) z iter) (fun a' => Some (mkL f' a'))) = Some s' -> length (act s') = length (act s)).
  { intros z x E. destruct (aset_at (fld s) z x); [|discriminate]. cbn [obind] in E. destruct (aset_at (act s) z iter) eqn:Q; [|discriminate]. cbn [obind] in E.
    injection E as <-. cbn [act]. eapply aset_len, Q. }
  destruct (Rgtb r r0); destruct (Rgtb _ _); intros E; try (eapply K; exact E); injection E as <-; reflexivity.
Qed.
Lemma relax_all_act g ftol iter a nbrs : forall s s', relax_all rnd g ftol iter s a nbrs = Some s' -> length (act s') = length (act s).
Proof.
  induction nbrs as [|b nbrs IH]; intros s s' E; cbn [relax_all] in E; [injection E as <-; reflexivity|].
  destruct (relax rnd g ftol iter s a b) eqn:Q; [|discriminate]. cbn [obind] in E. rewrite (IH _ _ E). eapply relax_act, Q.
Qed.
Variables d0 d1 d2 : Z.
Hypotheses (H0 : 0 < d0) (H1 : 0 < d1) (H2 : 0 < d2).
Lemma sweep_act g ftol iter aidx : forall s s', sweep rnd d0 d1 d2 g ftol iter s aidx = Some s' -> length (act s') = length (act s).
Proof.
  induction aidx as [|a aidx IH]; intros s s' E; cbn [sweep] in E; [injection E as <-; reflexivity|].
  destruct (relax_all _ _ _ _ _ _ _) eqn:Q; [|discriminate]. cbn [obind] in E. rewrite (IH _ _ E). eapply relax_all_act, Q.
Qed.
Section Small.
Hypothesis N : d0 * d1 * d2 <= 2 ^ 31 - 2.
Lemma sweep_int g ftol iter aidx : (forall a, In a aidx -> Z.of_nat a < d0 * d1 * d2) -> forall s, sweep_i rnd d0 d1 d2 g ftol iter s aidx = sweep rnd d0 d1 d2 g ftol iter s aidx.
Proof.
  induction aidx as [|a aidx IH]; intros L s; [reflexivity|]. cbn [sweep_i sweep]. pose proof (L a (or_introl eq_refl)). rewrite ck_some by lia. cbn [obind].
  rewrite stencil_int by (assumption || lia). cbn [obind]. destruct (relax_all _ _ _ _ _ _ _) as [s'|]; [|reflexivity]. cbn [obind]. apply IH. intros b I. apply L. right. exact I.
Qed.
Lemma loop_int g ftol fuel : forall iter s, 0 <= iter -> iter + Z.of_nat fuel <= 2 ^ 31 - 1 -> Z.of_nat (length (act s)) = d0 * d1 * d2 ->
  hj_loop_i rnd fuel d0 d1 d2 g ftol iter s = hj_loop rnd fuel d0 d1 d2 g ftol iter s.
Proof.
  induction fuel as [|n IH]; intros iter s I F L; [reflexivity|]. cbn [hj_loop_i hj_loop]. rewrite isub_some by lia. cbn [obind].
  assert (A : forall a, In a (findIndices (act s) (iter - 1)) -> Z.of_nat a < d0 * d1 * d2) by (intros a Ia; apply findIndices_spec in Ia; lia).
  destruct (findIndices (act s) (iter - 1)) as [|a aidx]; [reflexivity|]. rewrite sweep_int by exact A.
  destruct (sweep _ _ _ _ _ _ _ _ _) as [s'|] eqn:Q; [|reflexivity]. cbn [obind]. rewrite iadd_some by lia. cbn [obind]. apply IH; [lia|lia|].
  rewrite (sweep_act _ _ _ _ _ _ Q). exact L.
Qed.
Lemma limgrad_int elen dfdx imax f : Z.of_nat imax <= 2 ^ 31 - 1 -> c_limgrad_i rnd d0 d1 d2 elen dfdx imax f = c_limgrad_full rnd d0 d1 d2 elen dfdx imax f.
Proof.
  intros M. destruct (small_products d0 d1 d2 1 1 1) as (_ & _ & A3 & _); [lia|lia|lia|]. unfold c_limgrad_i, c_limgrad_full. rewrite imul_some by lia. cbn [obind].
  rewrite imul_some by lia. cbn [obind]. rewrite loop_int; [reflexivity|lia|lia|]. cbn [act]. rewrite repeat_length. lia.
Qed.
End Small.
(** beyond *)
Lemma limgrad_large elen dfdx imax f : 2 ^ 31 <= d0 * d1 * d2 -> c_limgrad_i rnd d0 d1 d2 elen dfdx imax f = None.
Proof.
  intros M. unfold c_limgrad_i. unfold imul at 1. unfold ck. destruct (int_ok (d0 * d1)); [|reflexivity]. cbn [obind]. unfold imul. rewrite ck_none by lia. reflexivity.
Qed.
Lemma sweep_none g ftol iter aidx a : In a aidx -> stencil_i d0 d1 d2 (Z.of_nat a) = None -> forall s, sweep_i rnd d0 d1 d2 g ftol iter s aidx = None.
Proof.
  intros I E. induction aidx as [|b aidx IH]; intros s; [contradiction|]. cbn [sweep_i]. destruct I as [-> | I].
  - unfold ck. destruct (int_ok _); [|reflexivity]. cbn [obind]. rewrite E. reflexivity.
  - destruct (ck _) as [zb|]; [|reflexivity]. cbn [obind]. destruct (stencil_i _ _ _ zb); [|reflexivity]. cbn [obind]. destruct (relax_all _ _ _ _ _ _ _); [|reflexivity]. cbn [obind].
    apply IH, I.
Qed.
End Loop.

(** 2^31 - 1 is prime *)
Fixpoint no_divisor (fuel : nat) (a : Z) : bool := match fuel with O => true | S n => negb ((2 ^ 31 - 1) mod a =? 0) && no_divisor n (a + 1) end.
Lemma no_divisor_spec fuel : forall a, no_divisor fuel a = true -> forall b, a <= b < a + Z.of_nat fuel -> (2 ^ 31 - 1) mod b <> 0.
Proof.
  induction fuel as [|n IH]; intros a H b B; [lia|]. cbn [no_divisor] in H. apply andb_true_iff in H as [H1 H2]. destruct (Z.eq_dec a b) as [-> | NE].
  - apply negb_true_iff, Z.eqb_neq in H1. exact H1.
  - apply (IH (a + 1) H2). lia.
Qed.
Lemma trial : no_divisor (Z.to_nat 46340) 2 = true.
Proof. vm_compute. reflexivity. Qed.
Lemma mersenne_small a b : 1 <= a <= b -> a * b = 2 ^ 31 - 1 -> a = 1.
Proof.
  intros H E. destruct (Z.eq_dec a 1) as [|NE]; [assumption|exfalso]. assert (a <= 46340) by nia.
  apply (no_divisor_spec _ _ trial a); [lia|]. rewrite <- E, Z.mul_comm. apply Z.mod_mul. lia.
Qed.
Lemma mersenne a b : 1 <= a -> 1 <= b -> a * b = 2 ^ 31 - 1 -> a = 1 \/ b = 1.
Proof. intros A B E. destruct (Z.le_gt_cases a b); [left; eapply mersenne_small; [|exact E]; lia|right; apply (mersenne_small b a); lia]. Qed.
Lemma last_overflows d0 d1 d2 : 0 < d0 -> 0 < d1 -> 0 < d2 -> d0 * d1 * d2 = 2 ^ 31 - 1 -> stencil_i d0 d1 d2 (2 ^ 31 - 2) = None.
Proof.
  intros H0 H1 H2 N. assert (D : (d0 = 2 ^ 31 - 1 /\ d1 = 1 /\ d2 = 1) \/ (d0 = 1 /\ d1 = 2 ^ 31 - 1 /\ d2 = 1) \/ (d0 = 1 /\ d1 = 1 /\ d2 = 2 ^ 31 - 1)).
  { destruct (mersenne (d0 * d1) d2 ltac:(nia) ltac:(lia) N) as [E|E].
    - assert (d0 = 1) by nia. assert (d1 = 1) by nia. subst. right; right. lia.
    - subst d2. rewrite Z.mul_1_r in N. destruct (mersenne d0 d1 ltac:(lia) ltac:(lia) N) as [E|E]; subst; [right; left|left]; lia. }
  unfold stencil_i. rewrite iadd_some by lia. cbn [obind]. rewrite (ind2sub_int d0 d1 d2) by lia. cbn [obind].
  pose proof (sub2ind_ind2sub d0 d1 d2 (2 ^ 31 - 2 + 1) H0 H1 H2 ltac:(lia) ltac:(lia)) as S. destruct (ind2sub _ d0 d1) as [[i j] k].
  destruct S as (I & J & K & Q). unfold sub2ind in Q.
  set (M := 2 ^ 31 - 1) in *. assert (EM : M = 2 ^ 31 - 1) by reflexivity. clearbody M.
  assert (B : i = M \/ j = M \/ k = M) by (destruct D as [(-> & -> & ->) | [(-> & -> & ->) | (-> & -> & ->)]]; lia).
  assert (bad : forall x, x = M -> iadd x 1 = None) by (intros x ->; apply ck_none; lia).
  destruct (iadd j 1) eqn:Ej; [|reflexivity]. cbn [obind]. destruct (sub2ind_i i _ k d0 d1); [|reflexivity]. cbn [obind].
  destruct (isub j 1); [|reflexivity]. cbn [obind]. destruct (sub2ind_i i _ k d0 d1); [|reflexivity]. cbn [obind].
  destruct (iadd i 1) eqn:Ei; [|reflexivity]. cbn [obind]. destruct (sub2ind_i _ j k d0 d1); [|reflexivity]. cbn [obind].
  destruct (isub i 1); [|reflexivity]. cbn [obind]. destruct (sub2ind_i _ j k d0 d1); [|reflexivity]. cbn [obind].
  destruct (iadd k 1) eqn:Ek; [|reflexivity]. exfalso. destruct B as [B | [B | B]]; apply bad in B; congruence.
Qed.
Lemma limgrad_mersenne rnd d0 d1 d2 elen dfdx imax f : 0 < d0 -> 0 < d1 -> 0 < d2 -> d0 * d1 * d2 = 2 ^ 31 - 1 -> (0 < imax)%nat ->
  c_limgrad_i rnd d0 d1 d2 elen dfdx imax f = None.
Proof.
  intros H0 H1 H2 N M. unfold c_limgrad_i. destruct (imul d0 d1) as [a|] eqn:Ea; [|reflexivity]. cbn [obind].
  assert (a = d0 * d1) as -> by (unfold imul, ck in Ea; destruct (int_ok _); [congruence|discriminate]).
  rewrite imul_some by lia. cbn [obind]. destruct imax as [|n]; [lia|]. cbn [hj_loop_i]. rewrite isub_some by lia. cbn [obind act].
  assert (I : In (Z.to_nat (2 ^ 31 - 2)) (findIndices (repeat (-1) (Z.to_nat (d0 * d1 * d2))) (0 - 1))).
  { apply findIndices_spec. rewrite repeat_length. split; [lia|]. rewrite nth_indep with (d' := -1) by (rewrite repeat_length; lia). apply nth_repeat. }
  destruct (findIndices _ _) as [|b l]; [contradiction|]. rewrite (sweep_none rnd d0 d1 d2 _ _ _ (b :: l) (Z.to_nat (2 ^ 31 - 2))); [reflexivity|exact I|].
  rewrite Z2Nat.id by lia. apply last_overflows; assumption.
Qed.
