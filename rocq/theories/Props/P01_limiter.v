(** C01-C06: the gradient limiter (FastHJ.cpp).
    Field layout: [val d0 d1 f (i,j,k)] is the value at a grid node (Spec/Grid.v).
    [is_rounding rnd F]: rnd is monotone and exact on the set F of representable numbers. *)
From Coq Require Import List ZArith Reals Lia Lra.
From Flocq Require Import Core.
From Verif Require Import Model.Base Model.FastHJ Spec.Grid Proofs.ListAux Proofs.GridIndex Proofs.Limgrad Proofs.LimgradMain.
Import ListNotations.

(** What a caller must supply: a positive grid of int size, a non-negative representable field of that size,
    non-negative spacing and grade. *)
Definition limiter_input (F : R -> Prop) (d0 d1 d2 : nat) (elen dfdx : R) (f : list R) : Prop :=
  valid_dims d0 d1 d2 /\ length f = d0 * d1 * d2 /\ Forall F f /\ (forall x, In x f -> (0 <= x)%R) /\
  (0 <= elen)%R /\ (0 <= dfdx)%R.

(** C01, any rounding.  The call succeeds (no access outside the arrays). *)
Theorem C01_limgrad_only_refines : forall rnd F, is_rounding rnd F ->
  forall d0 d1 d2 elen dfdx imax f, limiter_input F d0 d1 d2 elen dfdx f ->
  exists out, limgrad rnd (Z.of_nat d0) (Z.of_nat d1) (Z.of_nat d2) elen dfdx imax f = Some out /\
    length out = length f /\
    (forall i, (nth i out 0 <= nth i f 0)%R) /\
    (forall m, is_min f m -> is_min out m).
Proof.
  exact (fun rnd F Hr d0 d1 d2 elen dfdx imax f '(conj Hd (conj HL (conj HF (conj Hp (conj He Hg))))) =>
         refines_only rnd F Hr d0 d1 d2 elen dfdx imax f Hd HL HF Hp He Hg).
Qed.
Print Assumptions C01_limgrad_only_refines.

(** C01 for IEEE binary64 round-to-nearest-even. *)
Theorem C01_limgrad_only_refines_binary64 :
  forall d0 d1 d2 elen dfdx imax f,
  limiter_input (generic_format radix2 (FLT_exp (-1074) 53)) d0 d1 d2 elen dfdx f ->
  exists out, limgrad rnd64 (Z.of_nat d0) (Z.of_nat d1) (Z.of_nat d2) elen dfdx imax f = Some out /\
    length out = length f /\
    (forall i, (nth i out 0 <= nth i f 0)%R) /\
    (forall m, is_min f m -> is_min out m).
Proof. exact (C01_limgrad_only_refines rnd64 _ rnd64_is_rounding). Qed.
Print Assumptions C01_limgrad_only_refines_binary64.

Example C01_inputs_exist :
  limiter_input (generic_format radix2 (FLT_exp (-1074) 53)) 2 2 1 1 (1/2) [5; 1; 7; 3]%R /\ is_min [5; 1; 7; 3]%R 1.
Proof.
  split.
  - unfold limiter_input, valid_dims. split; [lia|]. split; [reflexivity|].
    split; [repeat constructor; apply format_int; lia|].
    split; [|lra]. intros x Hx. cbn in Hx. decompose [or] Hx; subst; try lra; contradiction.
  - split; [cbn; auto|]. intros x Hx. cbn in Hx. decompose [or] Hx; subst; try lra; contradiction.
Qed.

(** C02, any rounding: the test the code applies holds for every adjacent pair, in both directions. *)
Theorem C02_converged_is_graded_rounded : forall rnd F, is_rounding rnd F ->
  forall d0 d1 d2 elen dfdx imax f out, limiter_input F d0 d1 d2 elen dfdx f ->
  c_limgrad_full rnd (Z.of_nat d0) (Z.of_nat d1) (Z.of_nat d2) elen dfdx imax f = Some (out, true) ->
  forall p q, in_grid d0 d1 d2 p -> in_grid d0 d1 d2 q -> adjacent p q ->
  (val d0 d1 out q <= rnd (rnd (val d0 d1 out p + rnd (elen * dfdx)) + ftol_of rnd f))%R.
Proof.
  exact (fun rnd F Hr d0 d1 d2 elen dfdx imax f out '(conj Hd (conj HL (conj HF (conj Hp (conj He Hg))))) =>
         converged_bound rnd F Hr d0 d1 d2 elen dfdx imax f out Hd HL HF Hp He Hg).
Qed.
Print Assumptions C02_converged_is_graded_rounded.

Lemma graded_exact d0 d1 d2 elen dfdx imax f out m :
  limiter_input (fun _ => True) d0 d1 d2 elen dfdx f -> is_min f m ->
  c_limgrad_full idR (Z.of_nat d0) (Z.of_nat d1) (Z.of_nat d2) elen dfdx imax f = Some (out, true) ->
  graded d0 d1 d2 (elen * dfdx + m * sqrt (1 / 10 ^ 9)) out.
Proof.
  intros HI Hm Hc p q Hp Hq Hadj.
  assert (Hadj' : adjacent q p) by (unfold adjacent in *; rewrite gdist_sym; exact Hadj).
  pose proof (C02_converged_is_graded_rounded idR _ idR_rounding _ _ _ _ _ _ _ _ HI Hc p q Hp Hq Hadj) as H1.
  pose proof (C02_converged_is_graded_rounded idR _ idR_rounding _ _ _ _ _ _ _ _ HI Hc q p Hq Hp Hadj') as H2.
  assert (Hne : f <> []) by (intros ->; destruct Hm as [[] _]).
  assert (Em : min_list f = m) by (eapply is_min_unique; [apply is_min_min_list; exact Hne|exact Hm]).
  unfold ftol_of, idR in H1, H2. rewrite Em in H1, H2. apply Rabs_le_iff. lra.
Qed.

(** C02, exact arithmetic: |f(p) - f(q)| <= elen*grade + min(f)*sqrt(1e-9) for adjacent p, q. *)
Theorem C02_converged_is_graded : forall d0 d1 d2 elen dfdx imax f out m,
  limiter_input (fun _ => True) d0 d1 d2 elen dfdx f -> is_min f m ->
  c_limgrad_full idR (Z.of_nat d0) (Z.of_nat d1) (Z.of_nat d2) elen dfdx imax f = Some (out, true) ->
  graded d0 d1 d2 (elen * dfdx + m * sqrt (1 / 10 ^ 9)) out.
Proof. exact graded_exact. Qed.
Print Assumptions C02_converged_is_graded.

(** C03 lower envelope, any rounding and any stopping iteration: the value at q is not below every
    input value carried to q along grid edges (adding the growth once per edge). *)
Theorem C03_no_over_refinement_rounded : forall rnd F, is_rounding rnd F ->
  forall d0 d1 d2 elen dfdx imax f out, limiter_input F d0 d1 d2 elen dfdx f ->
  limgrad rnd (Z.of_nat d0) (Z.of_nat d1) (Z.of_nat d2) elen dfdx imax f = Some out ->
  forall q, in_grid d0 d1 d2 q -> exists p, in_grid d0 d1 d2 p /\
    (iterR (gdist p q) (fun x => rnd (x + rnd (elen * dfdx))) (val d0 d1 f p) <= val d0 d1 out q)%R.
Proof.
  exact (fun rnd F Hr d0 d1 d2 elen dfdx imax f out '(conj Hd (conj HL (conj HF (conj Hp (conj He Hg))))) =>
         lower_envelope rnd F Hr d0 d1 d2 elen dfdx imax f out Hd HL HF Hp He Hg).
Qed.
Print Assumptions C03_no_over_refinement_rounded.

Lemma lower_exact d0 d1 d2 elen dfdx imax f out :
  limiter_input (fun _ => True) d0 d1 d2 elen dfdx f ->
  limgrad idR (Z.of_nat d0) (Z.of_nat d1) (Z.of_nat d2) elen dfdx imax f = Some out ->
  forall q, in_grid d0 d1 d2 q -> exists p, in_grid d0 d1 d2 p /\
    (val d0 d1 f p + INR (gdist p q) * (elen * dfdx) <= val d0 d1 out q)%R.
Proof.
  intros HI E q Hq. 
  destruct (C03_no_over_refinement_rounded idR _ idR_rounding _ _ _ _ _ _ _ _ HI E q Hq) as (p & Hp & Hle).
  exists p. split; [exact Hp|]. unfold idR in Hle. rewrite iter_add in Hle. exact Hle.
Qed.

Lemma iterR_ext k h h' x : (forall y, h y = h' y) -> iterR k h x = iterR k h' x.
Proof. intros E. induction k as [|k IH]; cbn [iterR]; [reflexivity|]. rewrite IH. apply E. Qed.

Lemma upper_exact d0 d1 d2 elen dfdx imax f out m :
  limiter_input (fun _ => True) d0 d1 d2 elen dfdx f -> is_min f m ->
  c_limgrad_full idR (Z.of_nat d0) (Z.of_nat d1) (Z.of_nat d2) elen dfdx imax f = Some (out, true) ->
  forall p q, in_grid d0 d1 d2 p -> in_grid d0 d1 d2 q ->
  (val d0 d1 out q <= val d0 d1 f p + INR (gdist p q) * (elen * dfdx + m * sqrt (1 / 10 ^ 9)))%R.
Proof.
  intros (Hd & HL & HF & Hp & He & Hg) Hm Hc p q Hpg Hqg.
  pose proof (upper_envelope idR _ idR_rounding _ _ _ _ _ _ _ _ Hd HL HF Hp He Hg Hc p q Hpg Hqg) as H.
  assert (Hne : f <> []) by (intros ->; destruct Hm as [[] _]).
  assert (Em : min_list f = m) by (eapply is_min_unique; [apply is_min_min_list; exact Hne|exact Hm]).
  rewrite <- iter_add.
  rewrite (iterR_ext _ _ (fun y => y + (elen * dfdx + m * sqrt (1 / 10 ^ 9)))%R) in H; [exact H|].
  intros y. unfold ftol_of, idR. rewrite Em. ring.
Qed.

(** C03, exact arithmetic. *)
Theorem C03_no_over_refinement : forall d0 d1 d2 elen dfdx imax f out,
  limiter_input (fun _ => True) d0 d1 d2 elen dfdx f ->
  limgrad idR (Z.of_nat d0) (Z.of_nat d1) (Z.of_nat d2) elen dfdx imax f = Some out ->
  forall q, in_grid d0 d1 d2 q -> exists p, in_grid d0 d1 d2 p /\
    (val d0 d1 f p + INR (gdist p q) * (elen * dfdx) <= val d0 d1 out q)%R.
Proof. exact lower_exact. Qed.
Print Assumptions C03_no_over_refinement.

Theorem C03_converged_upper_envelope : forall d0 d1 d2 elen dfdx imax f out m,
  limiter_input (fun _ => True) d0 d1 d2 elen dfdx f -> is_min f m ->
  c_limgrad_full idR (Z.of_nat d0) (Z.of_nat d1) (Z.of_nat d2) elen dfdx imax f = Some (out, true) ->
  forall p q, in_grid d0 d1 d2 p -> in_grid d0 d1 d2 q ->
  (val d0 d1 out q <= val d0 d1 f p + INR (gdist p q) * (elen * dfdx + m * sqrt (1 / 10 ^ 9)))%R.
Proof. exact upper_exact. Qed.
Print Assumptions C03_converged_upper_envelope.

(** C04: convergence within an explicit number of sweeps (positive field, exact arithmetic). *)
Theorem C04_limgrad_converges : forall d0 d1 d2 elen dfdx imax f m,
  valid_dims d0 d1 d2 -> length f = d0 * d1 * d2 -> (forall x, In x f -> (0 < x)%R) ->
  (0 <= elen)%R -> (0 <= dfdx)%R -> is_min f m ->
  (INR imax >= 2 + (rsum f - INR (length f) * m) / (m * sqrt (1 / 10 ^ 9)))%R ->
  limgrad_converged idR (Z.of_nat d0) (Z.of_nat d1) (Z.of_nat d2) elen dfdx imax f.
Proof. exact terminates. Qed.
Print Assumptions C04_limgrad_converges.

(** C04: but for every cap (so long as the grid size is an int) there is a positive field which is not
    graded on return: spacing 1, grade 1, a row of 2*imax+2 nodes. *)
Theorem C04_cap_not_enough_refuted : forall imax, (Z.of_nat (2 * imax + 2) <= 2 ^ 31)%Z ->
  exists f out m,
    let N := (2 * imax + 2)%nat in
    length f = N /\ (forall x, In x f -> (0 < x)%R) /\ is_min f m /\
    limgrad idR (Z.of_nat N) 1 1 1 1 imax f = Some out /\
    ~ graded N 1 1 (1 * 1 + m * sqrt (1 / 10 ^ 9)) out.
Proof. exact cap_refuted. Qed.
Print Assumptions C04_cap_not_enough_refuted.

Example C04_cap_10000_in_range : (Z.of_nat (2 * Z.to_nat 10000 + 2) <= 2 ^ 31)%Z.
Proof. rewrite Nat2Z.inj_add, Nat2Z.inj_mul, Z2Nat.id by lia. lia. Qed.

(** The hypotheses of C02/C03-upper are met by actual runs: with the bound of C04 the limiter converges. *)
Example C02_converged_runs_exist : exists imax out,
  c_limgrad_full idR (Z.of_nat 2) (Z.of_nat 2) (Z.of_nat 1) 1 (1/2) imax [5; 1; 7; 3]%R = Some (out, true).
Proof.
  destruct C01_inputs_exist as [_ Hm].
  destruct (INR_above (2 + (rsum [5; 1; 7; 3] - INR (length [5; 1; 7; 3]) * 1) / (1 * sqrt (1 / 10 ^ 9)))%R) as [n Hn].
  exists n. apply (C04_limgrad_converges 2 2 1 1%R (1/2)%R n [5; 1; 7; 3]%R 1%R).
  - unfold valid_dims; lia.
  - reflexivity.
  - intros x Hx. cbn in Hx. decompose [or] Hx; subst; try lra; contradiction.
  - lra.
  - lra.
  - exact Hm.
  - apply Rgt_ge. exact Hn.
Qed.

(** C05: graded fields are returned unchanged (any rounding, any cap). *)
Theorem C05_graded_input_unchanged : forall rnd F, is_rounding rnd F ->
  forall d0 d1 d2 elen dfdx imax f, limiter_input F d0 d1 d2 elen dfdx f ->
  (forall p q, in_grid d0 d1 d2 p -> in_grid d0 d1 d2 q -> adjacent p q ->
    (val d0 d1 f q <= rnd (rnd (val d0 d1 f p + rnd (elen * dfdx)) + ftol_of rnd f))%R) ->
  limgrad rnd (Z.of_nat d0) (Z.of_nat d1) (Z.of_nat d2) elen dfdx imax f = Some f.
Proof.
  exact (fun rnd F Hr d0 d1 d2 elen dfdx imax f '(conj Hd (conj HL (conj HF (conj Hp (conj He Hg))))) =>
         fixed_point rnd F Hr d0 d1 d2 elen dfdx imax f Hd HL HF Hp He Hg).
Qed.
Print Assumptions C05_graded_input_unchanged.

Lemma graded_fixed_exact d0 d1 d2 elen dfdx imax f m :
  limiter_input (fun _ => True) d0 d1 d2 elen dfdx f -> is_min f m ->
  graded d0 d1 d2 (elen * dfdx + m * sqrt (1 / 10 ^ 9)) f ->
  limgrad idR (Z.of_nat d0) (Z.of_nat d1) (Z.of_nat d2) elen dfdx imax f = Some f.
Proof.
  intros HI Hm Hgr. apply (C05_graded_input_unchanged idR _ idR_rounding _ _ _ _ _ _ _ HI).
  intros p q Hp Hq Hadj. specialize (Hgr p q Hp Hq Hadj). apply Rabs_le_iff in Hgr.
  assert (Hne : f <> []) by (intros ->; destruct Hm as [[] _]).
  assert (Em : min_list f = m) by (eapply is_min_unique; [apply is_min_min_list; exact Hne|exact Hm]).
  unfold ftol_of, idR. rewrite Em. lra.
Qed.

Theorem C05_graded_input_unchanged_exact : forall d0 d1 d2 elen dfdx imax f m,
  limiter_input (fun _ => True) d0 d1 d2 elen dfdx f -> is_min f m ->
  graded d0 d1 d2 (elen * dfdx + m * sqrt (1 / 10 ^ 9)) f ->
  limgrad idR (Z.of_nat d0) (Z.of_nat d1) (Z.of_nat d2) elen dfdx imax f = Some f.
Proof. exact graded_fixed_exact. Qed.
Print Assumptions C05_graded_input_unchanged_exact.

Lemma idem rnd F : is_rounding rnd F ->
  forall d0 d1 d2 elen dfdx imax imax' f out, limiter_input F d0 d1 d2 elen dfdx f ->
  c_limgrad_full rnd (Z.of_nat d0) (Z.of_nat d1) (Z.of_nat d2) elen dfdx imax f = Some (out, true) ->
  limgrad rnd (Z.of_nat d0) (Z.of_nat d1) (Z.of_nat d2) elen dfdx imax' out = Some out.
Proof.
  intros Hr d0 d1 d2 elen dfdx imax imax' f out HI Hc.
  pose proof HI as (Hd & HL & HF & Hp & He & Hg).
  assert (Hne : f <> []) by (intros ->; destruct Hd as (? & ? & ? & _); cbn in HL; nia).
  destruct (C01_limgrad_only_refines rnd F Hr d0 d1 d2 elen dfdx imax f HI) as (o & Eo & HLo & _ & Hmin).
  unfold limgrad in Eo. rewrite Hc in Eo. cbn in Eo. injection Eo as <-.
  assert (Hm := Hmin _ (is_min_min_list f Hne)).
  assert (Hne' : out <> []) by (intros ->; destruct Hm as [[] _]).
  assert (Em : min_list out = min_list f) by (eapply is_min_unique; [apply is_min_min_list; exact Hne'|exact Hm]).
  assert (HFo : Forall F out).
  { destruct (limgrad_run rnd F Hr d0 d1 d2 elen dfdx imax f Hd HL HF Hp He Hg)
      as (n & act' & out' & b & E & _ & _ & W1 & _). rewrite E in Hc. injection Hc as -> ->. apply W1. }
  apply (C05_graded_input_unchanged rnd F Hr).
  - unfold limiter_input. split; [exact Hd|]. split; [lia|]. split; [exact HFo|]. split; [|split; assumption].
    intros x Hx. apply Rle_trans with (min_list f); [apply Hp; apply min_list_in; exact Hne|]. apply Hm. exact Hx.
  - intros p q Hpg Hqg Hadj. unfold ftol_of. rewrite Em.
    apply (C02_converged_is_graded_rounded rnd F Hr _ _ _ _ _ _ _ _ HI Hc p q Hpg Hqg Hadj).
Qed.

(** C05: idempotence. *)
Theorem C05_limgrad_idempotent : forall rnd F, is_rounding rnd F ->
  forall d0 d1 d2 elen dfdx imax imax' f out, limiter_input F d0 d1 d2 elen dfdx f ->
  c_limgrad_full rnd (Z.of_nat d0) (Z.of_nat d1) (Z.of_nat d2) elen dfdx imax f = Some (out, true) ->
  limgrad rnd (Z.of_nat d0) (Z.of_nat d1) (Z.of_nat d2) elen dfdx imax' out = Some out.
Proof. exact idem. Qed.
Print Assumptions C05_limgrad_idempotent.

Example C05_graded_input_exists :
  limiter_input (fun _ => True) 3 1 1 1 1 [1; 2; 3]%R /\ is_min [1; 2; 3]%R 1 /\
  graded 3 1 1 (1 * 1 + 1 * sqrt (1 / 10 ^ 9)) [1; 2; 3]%R.
Proof.
  split; [|split].
  - unfold limiter_input, valid_dims. split; [lia|]. split; [reflexivity|]. split; [repeat constructor|].
    split; [|lra]. intros x Hx. cbn in Hx. decompose [or] Hx; subst; try lra; contradiction.
  - split; [cbn; auto|]. intros x Hx. cbn in Hx. decompose [or] Hx; subst; try lra; contradiction.
  - intros [[i j] k] [[i' j'] k'] (Hi & Hj & Hk) (Hi' & Hj' & Hk') Hadj.
    assert (j = 0 /\ k = 0 /\ j' = 0 /\ k' = 0) as (-> & -> & -> & ->) by lia.
    unfold adjacent, gdist, adist in Hadj. pose proof sqrt_small as Hq. revert Hq.
    generalize (sqrt (1 / 10 ^ 9)). intros t Ht. apply Rabs_le_iff. unfold val, pos.
    assert (i = 0 \/ i = 1 \/ i = 2) as [-> | [-> | -> ]] by lia;
    assert (i' = 0 \/ i' = 1 \/ i' = 2) as [-> | [-> | -> ]] by lia; cbn in *; try lia; lra.
Qed.

(** C06: one-based subscripts -> index -> subscripts. *)
Theorem C06_sub2ind_ind2sub : forall d0 d1 d2 i j k : Z,
  (1 <= i <= d0 -> 1 <= j <= d1 -> 1 <= k <= d2 -> d0 * d1 * d2 <= 2 ^ 31 ->
  ind2sub (sub2ind i j k d0 d1) d0 d1 = (i, j, k))%Z.
Proof. exact ind2sub_sub2ind. Qed.
Print Assumptions C06_sub2ind_ind2sub.

(** C06: index -> subscripts (in range, so the asserts hold) -> index. *)
Theorem C06_ind2sub_sub2ind : forall d0 d1 d2 idx : Z,
  (0 < d0 -> 0 < d1 -> 0 < d2 -> d0 * d1 * d2 <= 2 ^ 31 -> 1 <= idx <= d0 * d1 * d2 ->
  let '(i, j, k) := ind2sub idx d0 d1 in
  1 <= i <= d0 /\ 1 <= j <= d1 /\ 1 <= k <= d2 /\ sub2ind i j k d0 d1 = idx)%Z.
Proof. exact sub2ind_ind2sub. Qed.
Print Assumptions C06_ind2sub_sub2ind.

(** C06: the binary64 division followed by ceil gives the exact ceiling of the quotient. *)
Theorem C06_plane_index_exact : forall q a r : Z,
  (0 <= q -> 1 <= a <= 2 ^ 31 -> 1 <= r <= a -> q * a + r <= 2 ^ 31 ->
   Zceil (rnd64 (IZR (q * a + r) / IZR a)) = q + 1)%Z.
Proof. exact plane_index_exact. Qed.
Print Assumptions C06_plane_index_exact.

Lemma stencil_valid d0 d1 d2 a : valid_dims d0 d1 d2 -> a < d0 * d1 * d2 ->
  forall n, In n (stencil (Z.of_nat d0) (Z.of_nat d1) (Z.of_nat d2) (Z.of_nat a)) ->
  exists p q, in_grid d0 d1 d2 p /\ in_grid d0 d1 d2 q /\ pos d0 d1 p = a /\ n = Z.of_nat (pos d0 d1 q) /\
    (pos d0 d1 q < d0 * d1 * d2) /\ (q = p \/ adjacent p q).
Proof.
  intros (_ & _ & _ & Hd) Ha n Hn. destruct (pos_surj _ _ _ _ Ha) as (p & Hp & <-).
  rewrite stencil_spec in Hn by assumption. apply in_map_iff in Hn. destruct Hn as (q & <- & Hq).
  assert (Hqg : in_grid d0 d1 d2 q) by (eapply nbr_in_grid; eauto).
  exists p, q. split; [exact Hp|]. split; [exact Hqg|]. split; [reflexivity|]. split; [reflexivity|].
  split; [apply pos_lt; exact Hqg|]. eapply nbr_dist; eauto.
Qed.

(** C06: every stencil index is a valid array position, and belongs to the node itself (at the border of the grid) or
    to a node adjacent to it. *)
Theorem C06_stencil_in_bounds : forall d0 d1 d2 a, valid_dims d0 d1 d2 -> a < d0 * d1 * d2 ->
  forall n, In n (stencil (Z.of_nat d0) (Z.of_nat d1) (Z.of_nat d2) (Z.of_nat a)) ->
  exists p q, in_grid d0 d1 d2 p /\ in_grid d0 d1 d2 q /\ pos d0 d1 p = a /\ n = Z.of_nat (pos d0 d1 q) /\
    (pos d0 d1 q < d0 * d1 * d2) /\ (q = p \/ adjacent p q).
Proof. exact stencil_valid. Qed.
Print Assumptions C06_stencil_in_bounds.

Example C06_case : (ind2sub (sub2ind 3 2 4 5 7) 5 7 = (3, 2, 4))%Z.
Proof. apply (C06_sub2ind_ind2sub 5 7 9); lia. Qed.
