(** Comparison of two size computations. *)
From Coq Require Import List ZArith Reals Bool Lia Lra.
From Verif Require Import Model.Base Model.FastHJ Model.Sizing Spec.Grid Spec.Velocity Spec.Coarser Proofs.ListAux Proofs.GridIndex Proofs.Limgrad Proofs.LimgradMain
  Proofs.SizingArr Proofs.SizingMain Proofs.SizingMore Model.UFilter Proofs.UFilterProofs Props.P01_limiter.
Import ListNotations.
Local Open Scope R_scope.

Definition below (T : R) (a a' : garr) : Prop := forall i j k, inr a i j k -> av a i j k <= av a' i j k + T.

Lemma amap_below f g a a' : shape_eq a a' -> (forall i j k, inr a i j k -> f (av a i j k) <= g (av a' i j k)) -> below 0 (amap f a) (amap g a').
Proof. intros S H i j k I. cbn. rewrite Rplus_0_r. apply H, I. Qed.

Section Two.
Variables (o o' : opts) (vp vp' : garr).
Hypothesis NS : no_slower o o' vp vp'.
Hypothesis NF : no_finer o o'.
Lemma ns_shape : shape_eq vp' vp.
Proof. destruct NS as (_ & [[-> _] | (_ & [E _] & _)]); [repeat split|]. injection E as E1 E2 E3 E4. repeat split; assumption. Qed.
Lemma conv_val u v i j k : av (convert_units u v) i j k = scaled u (av v i j k).
Proof. destruct u; cbn; ring. Qed.
Lemma dry_same u v v1 w : dry u v -> replace_water w (convert_units u v) = SzOk v1 -> v1 = convert_units u v.
Proof.
  intros D H. unfold replace_water in H. destruct (water_trigger _) eqn:E; [|congruence]. exfalso. unfold water_trigger in E. apply existsb_exists in E.
  destruct E as ([[i j] k] & I & E). apply andb_prop in E. destruct E as [E _]. unfold is_water in E. apply Rltb_true in E. rewrite conv_val in E.
  apply in_triples in I. destruct (convert_shape u v) as (_ & S0 & S1 & S2). rewrite S0, S1, S2 in I. pose proof (D i j k I). lra.
Qed.
Lemma scaled_le u x y : x <= y -> scaled u x <= scaled u y.
Proof. destruct u; cbn; lra. Qed.
(** after conversion and replacement of the water *)
Lemma prepared_le v1 v1' : prepare_vp o vp = SzOk v1 -> prepare_vp o' vp' = SzOk v1' ->
  below 0 v1 v1' /\ (v1' = v1 \/ o_grad o = 0).
Proof.
  unfold prepare_vp. destruct NS as (U & [[-> W] | (G & [SH F] & D)]); rewrite U.
  - rewrite W. intros H1 H2. rewrite H1 in H2. injection H2 as <-. split; [intros i j k _; lra | left; reflexivity].
  - intros H1 H2. injection SH as E1 E2 E3 E4.
    assert (D' : dry (o_units o) vp').
    { intros i j k I. unfold has in *. rewrite E2, E3, E4 in I. eapply Rle_trans; [apply (D i j k I) | apply scaled_le, F, I]. }
    rewrite (dry_same _ _ _ _ D H1), (dry_same _ _ _ _ D' H2). split; [|right; exact G].
    intros i j k I. rewrite !conv_val, Rplus_0_r. apply scaled_le, F. destruct (convert_shape (o_units o) vp) as (_ & S0 & S1 & S2). unfold inr in I. rewrite S0, S1, S2 in I. exact I.
Qed.
Variable ufilter : garr -> garr.
Variables v1 v1' : garr.
Hypothesis V : below 0 v1 v1'.
Hypothesis VS : shape_eq v1' v1.
Hypothesis VG : v1' = v1 \/ o_grad o = 0.
Lemma wavelength_le a a' : wavelength_sizing v1 (o_wl o) (o_freq o) = SzOk a -> wavelength_sizing v1' (o_wl o') (o_freq o') = SzOk a' ->
  (forall i j k, inr v1 i j k -> 0 <= av v1 i j k) -> below 0 a a'.
Proof.
  destruct NF as (W & _). unfold wavelength_sizing. intros H1 H2 P. destruct W as [[W W'] | [W F]].
  - rewrite W in H1. rewrite W' in H2. rewrite (proj2 (Reqb_true 0 0) eq_refl) in H1, H2. injection H1 as <-. injection H2 as <-. intros i j k _. cbn. lra.
  - rewrite (proj2 (Reqb_false (o_wl o) 0)), (proj2 (Rltb_false (o_wl o) 0)), (proj2 (Rltb_false (o_freq o) 0)) in H1 by lra.
    rewrite (proj2 (Reqb_false (o_wl o') 0)), (proj2 (Rltb_false (o_wl o') 0)), (proj2 (Rltb_false (o_freq o') 0)) in H2 by lra.
    assert (0 < o_freq o' * o_wl o') by nra. assert (0 < o_freq o * o_wl o) by nra. assert (o_freq o' * o_wl o' <= o_freq o * o_wl o) by nra.
    rewrite (proj2 (Reqb_false (o_freq o * o_wl o) 0)) in H1 by lra. rewrite (proj2 (Reqb_false (o_freq o' * o_wl o') 0)) in H2 by lra. injection H1 as <-. injection H2 as <-. intros i j k I. cbn. rewrite Rplus_0_r.
    pose proof (V i j k I) as L. pose proof (P i j k I). unfold Rdiv. apply Rmult_le_compat; [assumption | apply Rlt_le, Rinv_0_lt_compat; assumption | lra | apply Rinv_le_contravar; assumption].
Qed.
Lemma amin_ge0 w mn : positive_shape w -> mn = amin w -> forall i j k, inr w i j k -> 0 <= av (amap (fun v => v - mn) w) i j k.
Proof. intros S -> i j k I. cbn. pose proof (amin_le w i j k I). lra. Qed.
Lemma gradient_le a a' : positive_shape (window_variance ufilter v1) -> gradient_sizing ufilter v1 (o_grad o) = SzOk a -> gradient_sizing ufilter v1' (o_grad o') = SzOk a' ->
  shape_eq a v1 -> (forall i j k, inr v1 i j k -> inr (window_variance ufilter v1) i j k) -> below 0 a a'.
Proof.
  destruct NF as (_ & G & _). unfold gradient_sizing. intros PS H1 H2 SA IR. destruct G as [[G G'] | G].
  - rewrite G in H1. rewrite G' in H2. rewrite (proj2 (Reqb_true 0 0) eq_refl) in H1, H2. injection H1 as <-. injection H2 as <-. intros i j k _. cbn. lra.
  - destruct VG as [-> | Z]; [|lra]. rewrite (proj2 (Reqb_false (o_grad o) 0)), (proj2 (Rltb_false (o_grad o) 0)) in H1 by lra. rewrite (proj2 (Reqb_false (o_grad o') 0)), (proj2 (Rltb_false (o_grad o') 0)) in H2 by lra.
    unfold gradient_of_variance in H1, H2. destruct (Reqb (amax _) 0) in H1, H2; [discriminate|]. injection H1 as <-. injection H2 as <-.
    intros i j k I. rewrite Rplus_0_r. cbn. cbn in I.
    set (w1 := amap (fun v => v / amax (window_variance ufilter v1)) (window_variance ufilter v1)).
    assert (0 <= av (amap (fun v => v - amin w1) w1) i j k) as Q. { apply (amin_ge0 w1 (amin w1)); [exact PS | reflexivity | exact I]. } cbn in Q.
    unfold Rdiv at 1 3. apply Rmult_le_compat_r; [apply Rlt_le, Rinv_0_lt_compat; lra | lra].
Qed.
End Two.
Lemma clamp_le lo hi lo' hi' a a' : lo <= lo' -> hi <= hi' -> below 0 a a' -> below 0 (clamp lo hi a) (clamp lo' hi' a').
Proof.
  intros L H B i j k I. specialize (B i j k I). cbn. unfold Rgtb.
  destruct (Rltb (av a i j k) lo) eqn:E1; [apply Rltb_true in E1 | apply Rltb_false in E1]; (destruct (Rltb (av a' i j k) lo') eqn:E2; [apply Rltb_true in E2 | apply Rltb_false in E2]);
  repeat match goal with |- context [Rltb ?x ?y] => let E := fresh in destruct (Rltb x y) eqn:E; [apply Rltb_true in E | apply Rltb_false in E] end; lra.
Qed.
(** the Courant step takes the larger of the size and v*dt*so/cr *)
Lemma courant_max vp a cr dt so a' i j k : (0 < adim vp)%nat -> 0 <= dt -> 0 < cr -> 0 < so -> 0 < av a i j k -> inr a i j k -> courant vp a cr dt so = SzOk a' ->
  (dt = 0 /\ av a' i j k = av a i j k) \/ (0 < dt /\ av a' i j k = Rmax (av a i j k) (av vp i j k * dt * (so / cr))).
Proof.
  intros D DT CR SO P I H. apply courant_on_inv in H. destruct H as [[Z ->] | (_ & D0 & SO1 & ->)]; [left; split; [lra | reflexivity]|].
  right. split; [exact D0|]. unfold amap2; cbn [av]. set (v := av vp i j k). set (s := av a i j k) in *. assert (Hd : 0 < INR (adim vp)) by (apply lt_0_INR; exact D). set (d := INR (adim vp)) in *.
  replace (v * dt / (d * (cr / (d * so)))) with (v * dt * (so / cr)) by (field; lra).
  assert (E : v * dt / (d * s) <= cr / (d * so) <-> v * dt * (so / cr) <= s).
  { assert (K : v * dt / (d * s) * (d * s * (so / cr)) = v * dt * (so / cr)) by (field; lra). assert (K' : cr / (d * so) * (d * s * (so / cr)) = s) by (field; lra).
    assert (0 < d * s * (so / cr)) by (apply Rmult_lt_0_compat; [nra | apply Rdiv_lt_0_compat; lra]).
    set (w := d * s * (so / cr)) in *. split; intro X.
    - apply Rmult_le_compat_r with (r := w) in X; lra.
    - apply Rmult_le_reg_r with w; [assumption | lra]. }
  unfold Rgtb, Rmax. destruct (Rltb _ _) eqn:Q; [apply Rltb_true in Q | apply Rltb_false in Q]; destruct (Rle_dec _ _) as [L | L]; try reflexivity.
  - exfalso. assert (v * dt * (so / cr) <= s) by lra. apply E in H. lra.
  - apply E in Q. lra.
Qed.
Lemma courant_le vp vp' a a' cr dt so cr' dt' so' c c' : (0 < adim vp)%nat -> adim vp' = adim vp -> shape_eq a' a -> shape_eq a vp -> 0 <= dt <= dt' -> 0 < cr' <= cr -> 0 < so <= so' ->
  (forall i j k, inr vp i j k -> 0 <= av vp i j k) -> below 0 vp vp' -> (forall i j k, inr a i j k -> 0 < av a i j k) -> below 0 a a' ->
  courant vp a cr dt so = SzOk c -> courant vp' a' cr' dt' so' = SzOk c' -> below 0 c c'.
Proof.
  intros D D' S SV DT CR SO P V PA B H H' i j k I. pose proof (courant_shape _ _ _ _ _ _ SV H) as SC. assert (IA : inr a i j k) by (eapply shape_eq_inr; eassumption).
  assert (IV : inr vp i j k) by (eapply shape_eq_inr; eassumption). assert (IA' : inr a' i j k) by (eapply shape_eq_inr; [apply shape_eq_sym; exact S | exact IA]).
  specialize (B i j k IA). specialize (PA i j k IA). specialize (V i j k IV). specialize (P i j k IV).
  assert (PA' : 0 < av a' i j k) by lra. rewrite <- D' in D. pose proof D as D2. rewrite D' in D2.
  destruct (courant_max vp a cr dt so c i j k D2 ltac:(lra) ltac:(lra) ltac:(lra) PA IA H) as [[T ->] | [T ->]];
  destruct (courant_max vp' a' cr' dt' so' c' i j k D ltac:(lra) ltac:(lra) ltac:(lra) PA' IA' H') as [[T' ->] | [T' ->]]; try lra.
  - pose proof (Rmax_l (av a' i j k) (av vp' i j k * dt' * (so' / cr'))). lra.
  - apply Rmax_lub; [pose proof (Rmax_l (av a' i j k) (av vp' i j k * dt' * (so' / cr'))); lra|].
    eapply Rle_trans; [|rewrite Rplus_0_r; apply Rmax_r]. apply Rmult_le_compat; [apply Rmult_le_pos; lra | apply Rlt_le, Rdiv_lt_0_compat; lra | apply Rmult_le_compat; lra |].
    unfold Rdiv. apply Rmult_le_compat; [lra | apply Rlt_le, Rinv_0_lt_compat; lra | lra | apply Rinv_le_contravar; lra].
Qed.
(** padding *)
Lemma pad1_le T st e e' b n c f f' i : (0 < n)%nat -> (i < b + n + c)%nat -> e <= e' + T -> (forall k, (k < n)%nat -> f k <= f' k + T) -> pad1 st e b n c f i <= pad1 st e' b n c f' i + T.
Proof.
  intros N L E F. assert (F0 := F 0%nat N). assert (FN := F (n - 1)%nat ltac:(lia)).
  assert (R : forall x y t, x <= y + T -> 0 <= t <= 1 -> e + (x - e) * t <= e' + (y - e') * t + T). { intros x y t X Y. nra. }
  unfold pad1. destruct (Nat.ltb_spec i b) as [A | A].
  - destruct st; try lra. apply R; [exact F0|]. assert (0 < INR b) by (apply lt_0_INR; lia). split.
    + apply Rmult_le_pos; [apply pos_INR | apply Rlt_le, Rinv_0_lt_compat; assumption].
    + apply Rmult_le_reg_r with (INR b); [assumption|]. unfold Rdiv. rewrite Rmult_assoc, Rinv_l, Rmult_1_r, Rmult_1_l by lra. apply le_INR. lia.
  - destruct (Nat.ltb_spec i (b + n)) as [A' | A']; [apply F; lia|]. destruct st; try lra. apply R; [exact FN|]. assert (0 < INR c) by (apply lt_0_INR; lia). split.
    + apply Rmult_le_pos; [apply pos_INR | apply Rlt_le, Rinv_0_lt_compat; assumption].
    + apply Rmult_le_reg_r with (INR c); [assumption|]. unfold Rdiv. rewrite Rmult_assoc, Rinv_l, Rmult_1_r, Rmult_1_l by lra. apply le_INR. lia.
Qed.
Lemma amax_below T a a' : positive_shape a -> shape_eq a' a -> below T a a' -> amax a <= amax a' + T.
Proof.
  intros P S B. destruct (amax_attained a P) as (i & j & k & I & <-). eapply Rle_trans; [apply B, I|]. apply Rplus_le_compat_r, amax_ge. eapply shape_eq_inr; [apply shape_eq_sym; exact S | exact I].
Qed.
Lemma pad_it_le T st p0 p1 p2 e e' a a' c c' : positive_shape a -> shape_eq a' a -> e <= e' + T -> below T a a' -> pad_it st p0 p1 p2 e a = SzOk c -> pad_it st p0 p1 p2 e' a' = SzOk c' -> below T c c'.
Proof.
  intros (P0 & P1 & P2) (S & S0 & S1 & S2) E B H H' i j k I. unfold pad_it in H, H'. rewrite S0, S1, S2 in H'.
  destruct st; try discriminate; injection H as <-; injection H' as <-; cbn [av]; destruct I as (I0 & I1 & I2); cbn in I0, I1, I2;
  (apply pad1_le; [exact P2 | lia | exact E |]; intros k' K'; apply pad1_le; [exact P1 | lia | exact E |]; intros j' J'; apply pad1_le; [exact P0 | lia | exact E |]; intros i' I'; apply B; repeat split; assumption).
Qed.
Lemma domain_pad_le T a a' vp vp' b st pad c v d c' v' d' : positive_shape a -> shape_eq a' a -> shape_eq vp' vp -> below T a a' ->
  domain_pad a vp b st pad = SzOk (c, v, d) -> domain_pad a' vp' b st pad = SzOk (c', v', d') -> below T c c'.
Proof.
  intros P S SV B H H'. unfold domain_pad in H, H'. destruct (Rltb pad 0); [discriminate|]. destruct (Rgtb pad 0); [|injection H as <- <- <-; injection H' as <- <- <-; exact B].
  assert (pad_counts vp' b pad = pad_counts vp b pad) as EP. { destruct SV as (A & A0 & A1 & A2). unfold pad_counts, dz_of, dx_of, dy_of. rewrite A, A0, A1, A2. reflexivity. }
  rewrite EP in H'. destruct (pad_counts vp b pad) as [[p0 p1] p2].
  apply sbind_ok in H, H'. destruct H as (x & X & H), H' as (x' & X' & H'). apply sbind_ok in H, H'. destruct H as (y & Y & H), H' as (y' & Y' & H').
  injection H as <- <- <-. injection H' as <- <- <-. eapply pad_it_le; [exact P | exact S | apply amax_below; eassumption | exact B | exact X | exact X'].
Qed.
(** ---- gradation ---- *)
Lemma graded_path d0 d1 d2 f tau : valid_dims d0 d1 d2 -> 0 <= tau -> graded d0 d1 d2 tau f ->
  forall p q, in_grid d0 d1 d2 p -> in_grid d0 d1 d2 q -> val d0 d1 f q <= val d0 d1 f p + INR (gdist p q) * tau.
Proof.
  intros (_ & _ & _ & Hd) T G p q Hp Hq. rewrite <- iter_add.
  pose proof (conv_upper idR (fun _ => True) idR_rounding d0 d1 d2 tau 0 T (Rle_refl 0) f ltac:(apply Forall_forall; auto)) as C.
  rewrite (iterR_ext _ (fun y => y + tau) (Limgrad.S2 idR tau 0)) by (intro y; unfold Limgrad.S2, Limgrad.T, idR; ring).
  apply C; [|exact Hp | exact Hq | reflexivity].
  intros u v (x & y & Hx & Hy & A & <- & <-) [_ V]. unfold Limgrad.S2, Limgrad.T, idR in V. specialize (G x y Hx Hy A). apply Rabs_le_iff in G. unfold val in G. lra.
Qed.
Lemma gdist_max d0 d1 d2 p q : in_grid d0 d1 d2 p -> in_grid d0 d1 d2 q -> (gdist p q <= d0 + d1 + d2 - 3)%nat.
Proof. destruct p as [[i j] k], q as [[i' j'] k']. unfold in_grid, gdist, adist. lia. Qed.
Lemma flat_val a i j k : inr a i j k -> val (n0 a) (n1 a) (flattenF a) (i, j, k) = av a i j k.
Proof. intro I. unfold val, pos. apply nth_flattenF, I. Qed.
Lemma gradation_le a a' grade grade' elen tol c c' : int_grid a -> shape_eq a' a -> 0 <= elen -> 0 <= tol -> 0 < grade <= grade' ->
  (forall i j k, inr a i j k -> 0 <= av a i j k) -> below 0 a a' ->
  gradation a grade elen = SzOk c -> gradation a' grade' elen = SzOk c' -> graded (n0 c) (n1 c) (n2 c) (elen * grade + tol) (flattenF c) ->
  below (INR (n0 a + n1 a + n2 a - 3) * tol) c c'.
Proof.
  intros IG S E TL G P B H H' GR i j k I. pose proof (gradation_shape _ _ _ _ H) as SC. pose proof (gradation_bounds a grade elen c 0 IG E (Rle_refl 0) P H) as BD.
  assert (IG' : int_grid a') by (eapply shape_int_grid; [apply shape_eq_sym; exact S | exact IG]).
  assert (P' : forall i j k, inr a' i j k -> 0 <= av a' i j k). { intros x y z J. assert (K : inr a x y z) by exact (shape_eq_inr _ _ _ _ _ S J). pose proof (P x y z K). pose proof (B x y z K). lra. }
  destruct (gradation_inv a' grade' elen c' IG' E P' H') as [[Z _] | (_ & out & EL & ->)]; [lra|].
  assert (LI : limiter_input (fun _ => True) (n0 a') (n1 a') (n2 a') elen grade' (flattenF a')).
  { split; [apply int_grid_valid, IG'|]. split; [apply flattenF_length|]. split; [apply Forall_forall; auto|]. split; [apply flattenF_forall, P' | lra]. }
  destruct SC as (_ & C0 & C1 & C2). destruct S as (S0 & S1 & S2 & S3). assert (IQ : in_grid (n0 a') (n1 a') (n2 a') (i, j, k)). { destruct I as (? & ? & ?). cbn. lia. }
  destruct (C03_no_over_refinement _ _ _ _ _ _ _ _ LI EL (i, j, k) IQ) as ([[x y] z] & Hp & L).
  assert (JA' : inr a' x y z) by exact Hp. assert (JA : inr a x y z) by (destruct JA' as (? & ? & ?); repeat split; lia). assert (JC : inr c x y z) by (destruct JA as (? & ? & ?); repeat split; lia).
  assert (GD : (gdist (x, y, z) (i, j, k) <= n0 a + n1 a + n2 a - 3)%nat). { rewrite <- S1, <- S2, <- S3. apply gdist_max; assumption. }
  assert (VD : valid_dims (n0 c) (n1 c) (n2 c)). { rewrite C0, C1, C2. apply int_grid_valid, IG. }
  pose proof (graded_path _ _ _ _ (elen * grade + tol) VD ltac:(nra) GR (x, y, z) (i, j, k) JC I) as GP. rewrite !flat_val in GP by assumption.
  rewrite flat_val in L by assumption. specialize (BD x y z JA). specialize (B x y z JA). cbn [av reshapeF]. unfold val, pos in L.
  set (m := gdist (x, y, z) (i, j, k)) in *. apply le_INR in GD. pose proof (pos_INR m) as M0.
  assert (INR m * tol <= INR (n0 a + n1 a + n2 a - 3) * tol) by (apply Rmult_le_compat_r; assumption).
  assert (INR m * (elen * grade) <= INR m * (elen * grade')) by (apply Rmult_le_compat_l; [assumption | apply Rmult_le_compat_l; lra]).
  lra.
Qed.

(** ---- whole calls ---- *)
Lemma prepared_nonneg o vp v1 : (forall i j k, inr vp i j k -> 0 <= av vp i j k) -> prepare_vp o vp = SzOk v1 -> forall i j k, inr v1 i j k -> 0 <= av v1 i j k.
Proof.
  intros P H i j k I. pose proof (prepare_shape _ _ _ H) as S. assert (J : inr vp i j k) by (eapply shape_eq_inr; eassumption). specialize (P i j k J).
  assert (C : 0 <= av (convert_units (o_units o) vp) i j k) by (rewrite conv_val; destruct (o_units o); cbn; lra).
  unfold prepare_vp, replace_water in H. destruct (water_trigger _); [|injection H as <-; exact C].
  destruct (o_vp_water o) as [x|]; [|discriminate]. destruct (Rltb x 1300) eqn:X; [discriminate|]. apply Rltb_false in X. destruct (Rgtb x 1800); [discriminate|]. cbn [orb] in H. injection H as <-.
  cbn [av amap]. destruct (is_water _); [lra | exact C].
Qed.
Section Whole.
Variables (win : list R) (o o' : opts) (b : bbox) (vp vp' a v a' v' : garr) (d d' : bbox).
Hypothesis IG : int_grid vp.
Hypothesis BX : bget b 0 <= bget b 1.
Hypothesis HM : 0 < o_hmin o <= o_hmax o.
Hypothesis AD : (0 < adim vp)%nat.
Hypothesis NN : forall i j k, inr vp i j k -> 0 <= av vp i j k.
Hypothesis NS : no_slower o o' vp vp'.
Hypothesis NF : no_finer o o'.
Hypothesis H : get_sizing (uniform_filter win) o b vp = SzOk (a, v, d).
Hypothesis H' : get_sizing (uniform_filter win) o' b vp' = SzOk (a', v', d').
Lemma before_grading : exists v1 v1' c c' e e', shape_eq v1 vp /\ shape_eq v1' vp /\ shape_eq c vp /\ shape_eq c' vp /\ below 0 c c' /\
  (forall i j k, inr c i j k -> 0 < av c i j k) /\
  gradation c (o_grade o) ((bget b 1 - bget b 0) / INR (n0 vp)) = SzOk e /\ gradation c' (o_grade o') ((bget b 1 - bget b 0) / INR (n0 vp)) = SzOk e' /\
  domain_pad e v1 b (o_pad_style o) (o_domain_pad o) = SzOk (a, v, d) /\ domain_pad e' v1' b (o_pad_style o) (o_domain_pad o) = SzOk (a', v', d').
Proof.
  destruct (get_sizing_inv _ _ _ _ _ _ _ H) as (v1 & a0 & c & e & P1 & _ & I1 & C1 & G1 & D1 & S1 & S0 & S2 & S3).
  destruct (get_sizing_inv _ _ _ _ _ _ _ H') as (v1' & a0' & c' & e' & P1' & _ & I1' & C1' & G1' & D1' & S1' & S0' & S2' & S3').
  pose proof (ns_shape o o' vp vp' NS) as SV. destruct NF as (NW & NG & Nm & NM & ND & NC & NO & NPS & NP).
  destruct (prepared_le o o' vp vp' NS v1 v1' P1 P1') as [V VG]. pose proof (prepared_nonneg o vp v1 NN P1) as VN.
  assert (SV1 : shape_eq v1' v1) by (eapply shape_eq_trans; [exact S1'|]; eapply shape_eq_trans; [exact SV | apply shape_eq_sym; exact S1]).
  assert (PV : positive_shape v1). { apply int_grid_pos. eapply shape_int_grid; [apply shape_eq_sym; exact S1 | exact IG]. }
  assert (B0 : below 0 a0 a0').
  { unfold initial_size in I1, I1'. assert (EQ : Rgtb (o_wl o') 0 || Rgtb (o_grad o') 0 = Rgtb (o_wl o) 0 || Rgtb (o_grad o) 0).
    { f_equal; unfold Rgtb.
      - destruct NW as [[-> ->] | [W _]]; [reflexivity|]. rewrite !(proj2 (Rltb_true _ _)) by lra. reflexivity.
      - destruct NG as [[-> ->] | W]; [reflexivity|]. rewrite !(proj2 (Rltb_true _ _)) by lra. reflexivity. }
    rewrite EQ in I1'. destruct (_ || _); [|injection I1 as <-; injection I1' as <-; intros i j k _; cbn; lra].
    apply sbind_ok in I1, I1'. destruct I1 as (x & X & I1), I1' as (x' & X' & I1'). apply sbind_ok in I1, I1'. destruct I1 as (y & Y & I1), I1' as (y' & Y' & I1').
    injection I1 as <-. injection I1' as <-.
    assert (BW : below 0 x x') by (eapply (wavelength_le o o' NF v1 v1' V); eassumption).
    pose proof (wavelength_shape _ _ _ _ X) as SX.
    assert (BG : forall i j k, inr v1 i j k -> av y i j k <= av y' i j k + 0).
    { intros i j k I. destruct NG as [[G G'] | G].
      - unfold gradient_sizing in Y, Y'. rewrite G in Y. rewrite G' in Y'. rewrite (proj2 (Reqb_true 0 0) eq_refl) in Y, Y'. injection Y as <-. injection Y' as <-. cbn. lra.
      - pose proof (variance_shape win v1) as SW.
        assert (SY : shape_eq y (window_variance (uniform_filter win) v1)).
        { unfold gradient_sizing in Y. rewrite (proj2 (Reqb_false (o_grad o) 0)), (proj2 (Rltb_false (o_grad o) 0)) in Y by lra. unfold gradient_of_variance in Y. destruct (Reqb _ _); [discriminate|]. injection Y as <-. repeat split. }
        apply (gradient_le o o' NF (uniform_filter win) v1 v1' V SV1 VG y y').
        + eapply shape_pos; [apply shape_eq_sym; exact SW | exact PV].
        + exact Y.
        + exact Y'.
        + eapply shape_eq_trans; eassumption.
        + intros x0 y0 z0 J. eapply shape_eq_inr; [apply shape_eq_sym; exact SW | exact J].
        + eapply shape_eq_inr; [apply shape_eq_sym; eapply shape_eq_trans; [exact SY | exact SW] | exact I]. }
    intros i j k I. assert (IX : inr x i j k) by exact I. assert (IV : inr v1 i j k) by (eapply shape_eq_inr; eassumption).
    specialize (BW i j k IX). specialize (BG i j k IV). cbn [av amap2]. apply Rle_trans with (Rmin (av x' i j k) (av y' i j k)); [|lra].
    unfold Rmin; repeat destruct (Rle_dec _ _); lra. }
  assert (SA : shape_eq (clamp (o_hmin o) (o_hmax o) a0) v1). { eapply shape_eq_trans; [apply clamp_shape|]. eapply shape_eq_trans; [exact S0 | apply shape_eq_sym; exact S1]. }
  assert (BC : below 0 (clamp (o_hmin o) (o_hmax o) a0) (clamp (o_hmin o') (o_hmax o') a0')) by (apply clamp_le; assumption).
  assert (PC : forall i j k, inr (clamp (o_hmin o) (o_hmax o) a0) i j k -> 0 < av (clamp (o_hmin o) (o_hmax o) a0) i j k).
  { intros i j k _. pose proof (clamp_bounds (o_hmin o) (o_hmax o) a0 i j k (proj2 HM)). lra. }
  assert (AD1 : (0 < adim v1)%nat) by (destruct S1 as (-> & _); exact AD).
  exists v1, v1', c, c', e, e'. split; [exact S1|]. split; [eapply shape_eq_trans; [exact SV1 | exact S1]|]. split; [exact S2|].
  split; [eapply shape_eq_trans; [exact S2' | exact SV]|]. split; [|split; [|split; [|split; [|split]]]].
  - refine (courant_le v1 v1' _ _ _ _ _ _ _ _ c c' AD1 _ _ SA ND NC NO VN V PC BC C1 C1'); [apply SV1|].
    eapply shape_eq_trans; [apply clamp_shape|]. eapply shape_eq_trans; [exact S0'|]. eapply shape_eq_trans; [exact SV|].
    eapply shape_eq_trans; [apply shape_eq_sym; exact S1 | apply shape_eq_sym; exact SA].
  - intros i j k I. pose proof (courant_shape _ _ _ _ _ _ SA C1) as SC. assert (IA : inr (clamp (o_hmin o) (o_hmax o) a0) i j k) by (eapply shape_eq_inr; eassumption).
    specialize (PC i j k IA). destruct (courant_max v1 _ (o_cr_max o) (o_dt o) (o_space_order o) c i j k AD1 ltac:(lra) ltac:(lra) ltac:(lra) PC IA C1) as [[_ ->] | [_ ->]]; [exact PC|].
    eapply Rlt_le_trans; [exact PC | apply Rmax_l].
  - destruct S1 as (_ & <- & _). exact G1.
  - destruct (shape_eq_trans _ _ _ SV1 S1) as (_ & <- & _). exact G1'.
  - exact D1.
  - rewrite <- NPS, <- NP. exact D1'.
Qed.
Lemma sizes_le_ungraded : o_grade o' = 0 -> shape_eq a' a /\ below 0 a a'.
Proof.
  intro GZ. destruct before_grading as (v1 & v1' & c & c' & e & e' & SV & SV' & SC & SC' & B & P & G & G' & D & D').
  assert (IC : int_grid c) by (eapply shape_int_grid; [apply shape_eq_sym; exact SC | exact IG]).
  assert (EN : 0 <= (bget b 1 - bget b 0) / INR (n0 vp)) by (apply (elen_nonneg b vp); [apply IG | exact BX]).
  pose proof (gradation_shape _ _ _ _ G) as SE. pose proof (gradation_shape _ _ _ _ G') as SE'.
  assert (SEE : shape_eq e' e). { eapply shape_eq_trans; [exact SE'|]. eapply shape_eq_trans; [exact SC'|]. apply shape_eq_sym. eapply shape_eq_trans; [exact SE | exact SC]. }
  assert (BE : below 0 e e').
  { intros i j k I. assert (J : inr c i j k) by (eapply shape_eq_inr; eassumption).
    destruct (gradation_bounds c _ _ e 0 IC EN (Rle_refl 0) ltac:(intros; apply Rlt_le, P; assumption) G i j k J) as [_ L].
    rewrite GZ, gradation_off in G'. injection G' as <-. specialize (B i j k J). lra. }
  split.
  - unfold domain_pad in D, D'. destruct (Rltb _ 0); [discriminate|]. destruct (Rgtb _ 0); [|injection D as <- <- <-; injection D' as <- <- <-; exact SEE].
    assert (EP : forall p, pad_counts v1' b p = pad_counts v1 b p). { intro p. destruct (shape_eq_trans _ _ _ SV' (shape_eq_sym _ _ SV)) as (A & A0 & A1 & A2). unfold pad_counts, dz_of, dx_of, dy_of. rewrite A, A0, A1, A2. reflexivity. }
    rewrite EP in D'. destruct (pad_counts v1 b _) as [[p0 p1] p2]. apply sbind_ok in D, D'. destruct D as (x & X & D), D' as (x' & X' & D'). apply sbind_ok in D, D'. destruct D as (y & Y & D), D' as (y' & Y' & D').
    injection D as <- <- <-. injection D' as <- <- <-. apply pad_it_ok in X, X'. destruct X as (X1 & X2 & X3 & X4 & _), X' as (X1' & X2' & X3' & X4' & _). destruct SEE as (Q0 & Q1 & Q2 & Q3). repeat split; congruence.
  - refine (domain_pad_le 0 e e' v1 v1' b _ _ a v d a' v' d' _ SEE _ BE D D').
    + apply int_grid_pos. eapply shape_int_grid; [|exact IG]. apply shape_eq_sym. eapply shape_eq_trans; eassumption.
    + eapply shape_eq_trans; [exact SV' | apply shape_eq_sym; exact SV].
Qed.
Lemma sizes_le_graded tol : 0 < o_grade o <= o_grade o' -> o_domain_pad o = 0 -> 0 <= tol ->
  graded (n0 a) (n1 a) (n2 a) ((bget b 1 - bget b 0) / INR (n0 vp) * o_grade o + tol) (flattenF a) -> shape_eq a' a /\ below (INR (n0 vp + n1 vp + n2 vp - 3) * tol) a a'.
Proof.
  intros GG PZ TL GR. destruct before_grading as (v1 & v1' & c & c' & e & e' & SV & SV' & SC & SC' & B & P & G & G' & D & D').
  rewrite PZ in D, D'. unfold domain_pad, Rgtb in D, D'. rewrite (proj2 (Rltb_false 0 0)) in D, D' by lra. injection D as <- <- <-. injection D' as <- <- <-.
  assert (IC : int_grid c) by (eapply shape_int_grid; [apply shape_eq_sym; exact SC | exact IG]).
  assert (EN : 0 <= (bget b 1 - bget b 0) / INR (n0 vp)) by (apply (elen_nonneg b vp); [apply IG | exact BX]).
  pose proof (gradation_shape _ _ _ _ G) as SE. pose proof (gradation_shape _ _ _ _ G') as SE'.
  assert (SCC : shape_eq c' c). { eapply shape_eq_trans; [exact SC' | apply shape_eq_sym; exact SC]. }
  split; [eapply shape_eq_trans; [exact SE'|]; eapply shape_eq_trans; [exact SCC | apply shape_eq_sym; exact SE]|].
  assert (N : (n0 vp + n1 vp + n2 vp - 3 = n0 c + n1 c + n2 c - 3)%nat) by (destruct SC as (_ & -> & -> & ->); reflexivity). rewrite N.
  refine (gradation_le c c' _ _ _ tol e e' IC SCC EN TL GG _ B G G' GR). intros i j k I. apply Rlt_le, P, I.
Qed.
End Whole.
