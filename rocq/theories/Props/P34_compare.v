(** C99: comparing the sizes of two calls.  Vocabulary: Spec/Coarser.v, Spec/Velocity.v, Spec/Grid.v. *)
From Coq Require Import List ZArith Reals Bool Lia Lra.
From Verif Require Import Model.Base Model.FastHJ Model.Sizing Model.UFilter Spec.Grid Spec.Velocity Spec.Coarser Proofs.ListAux Proofs.GridIndex Proofs.Limgrad
  Proofs.LimgradMain Proofs.SizingArr Proofs.SizingMain Proofs.SizingMore Proofs.UFilterProofs Proofs.Compare Props.P01_limiter.
Import ListNotations.
Local Open Scope R_scope.

(** what both calls share: a grid whose size is an int, non-negative velocities, a box, positive hmin *)
Definition sensible (o : opts) (b : bbox) (vp : garr) : Prop :=
  (0 < adim vp)%nat /\ (0 < n0 vp)%nat /\ (0 < n1 vp)%nat /\ (0 < n2 vp)%nat /\ (Z.of_nat (n0 vp) * Z.of_nat (n1 vp) * Z.of_nat (n2 vp) <= 2 ^ 31)%Z /\
  (forall i j k, has vp i j k -> 0 <= av vp i j k) /\ bget b 0 <= bget b 1 /\ 0 < o_hmin o <= o_hmax o.
Lemma sensible_grid o b vp : sensible o b vp -> int_grid vp.
Proof. intros (_ & A & B & C & D & _). unfold int_grid. repeat split; assumption. Qed.

(** options asking for no finer resolution give no smaller sizes, if the second call does not grade *)
Theorem C99_no_grading : forall win o o' b vp vp' a v d a' v' d', sensible o b vp -> no_slower o o' vp vp' -> no_finer o o' -> o_grade o' = 0 ->
  get_sizing (uniform_filter win) o b vp = SzOk (a, v, d) -> get_sizing (uniform_filter win) o' b vp' = SzOk (a', v', d') ->
  (n0 a', n1 a', n2 a') = (n0 a, n1 a, n2 a) /\ forall i j k, has a i j k -> av a i j k <= av a' i j k.
Proof.
  intros win o o' b vp vp' a v d a' v' d' S NS NF G H H'. pose proof (sensible_grid _ _ _ S) as IG. destruct S as (AD & _ & _ & _ & _ & NN & BX & HM).
  destruct (sizes_le_ungraded win o o' b vp vp' a v a' v' d d' IG BX HM AD NN NS NF H H' G) as [(_ & S0 & S1 & S2) B].
  split; [congruence|]. intros i j k I. specialize (B i j k I). lra.
Qed.
Print Assumptions C99_no_grading.
(** with grading: up to the tolerance to which the first result is graded, once per grid step (C02: min size * sqrt(1e-9) when the limiter converges) *)
Theorem C99_grading : forall win o o' b vp vp' a v d a' v' d' tol, sensible o b vp -> no_slower o o' vp vp' -> no_finer o o' -> 0 < o_grade o <= o_grade o' -> o_domain_pad o = 0 ->
  get_sizing (uniform_filter win) o b vp = SzOk (a, v, d) -> get_sizing (uniform_filter win) o' b vp' = SzOk (a', v', d') ->
  0 <= tol -> graded (n0 a) (n1 a) (n2 a) ((bget b 1 - bget b 0) / INR (n0 vp) * o_grade o + tol) (flattenF a) ->
  (n0 a', n1 a', n2 a') = (n0 a, n1 a, n2 a) /\ forall i j k, has a i j k -> av a i j k <= av a' i j k + INR (n0 vp + n1 vp + n2 vp - 3) * tol.
Proof.
  intros win o o' b vp vp' a v d a' v' d' tol S NS NF G PZ H H' TL GR. pose proof (sensible_grid _ _ _ S) as IG. destruct S as (AD & _ & _ & _ & _ & NN & BX & HM).
  destruct (sizes_le_graded win o o' b vp vp' a v a' v' d d' IG BX HM AD NN NS NF H H' tol G PZ TL GR) as [(_ & S0 & S1 & S2) B].
  split; [congruence|]. intros i j k I. exact (B i j k I).
Qed.
Print Assumptions C99_grading.
(** the limiter alone: a larger field, limited with no smaller growth *)
Theorem C99_limiter : forall d0 d1 d2 elen dfdx dfdx' imax imax' f f' out out' m,
  limiter_input (fun _ => True) d0 d1 d2 elen dfdx f -> limiter_input (fun _ => True) d0 d1 d2 elen dfdx' f' -> is_min f m -> dfdx <= dfdx' ->
  (forall p, in_grid d0 d1 d2 p -> val d0 d1 f p <= val d0 d1 f' p) ->
  c_limgrad_full idR (Z.of_nat d0) (Z.of_nat d1) (Z.of_nat d2) elen dfdx imax f = Some (out, true) ->
  limgrad idR (Z.of_nat d0) (Z.of_nat d1) (Z.of_nat d2) elen dfdx' imax' f' = Some out' ->
  forall q, in_grid d0 d1 d2 q -> val d0 d1 out q <= val d0 d1 out' q + INR (d0 + d1 + d2 - 3) * (m * sqrt (1 / 10 ^ 9)).
Proof.
  intros d0 d1 d2 elen dfdx dfdx' imax imax' f f' out out' m LI LI' M DF B H H' q Q. pose proof LI as (_ & _ & _ & P & E & G).
  destruct (C03_no_over_refinement _ _ _ _ _ _ _ _ LI' H' q Q) as (p & Hp & L). pose proof (C03_converged_upper_envelope _ _ _ _ _ _ _ _ _ LI M H p q Hp Q) as U.
  specialize (B p Hp). pose proof (gdist_max _ _ _ p q Hp Q) as GD. apply le_INR in GD. set (n := gdist p q) in *. pose proof (pos_INR n).
  assert (T : 0 <= m * sqrt (1 / 10 ^ 9)) by (apply Rmult_le_pos; [apply P, M | apply sqrt_pos]). set (t := m * sqrt (1 / 10 ^ 9)) in *.
  assert (INR n * t <= INR (d0 + d1 + d2 - 3) * t) by (apply Rmult_le_compat_r; assumption).
  assert (INR n * (elen * dfdx) <= INR n * (elen * dfdx')) by (apply Rmult_le_compat_l; [assumption | apply Rmult_le_compat_l; assumption]). lra.
Qed.
Print Assumptions C99_limiter.

(** ---- two samples, spacing 1, grade 1 ---- *)
Definition t9 : R := sqrt (1 / 10 ^ 9).
Lemma t9_bound : 0 < t9 < / 10000.
Proof.
  unfold t9. split; [apply sqrt_lt_R0; lra|]. replace (/ 10000) with (sqrt (/ 10000 * / 10000)) by (apply sqrt_square; lra). apply sqrt_lt_1; lra.
Qed.
Lemma ftol2 x : 1 <= x -> ftol_of idR [1; x] = t9.
Proof. intro X. unfold ftol_of, idR, t9. replace (min_list [1; x]) with 1 by (cbn; unfold Rmin; destruct (Rle_dec _ _); lra). ring. Qed.
Lemma edge2 u v : edge 2 1 1 u v -> (u = 0 /\ v = 1 \/ u = 1 /\ v = 0)%nat.
Proof.
  intros ([[i j] k] & [[i' j'] k'] & (A & B & C) & (A' & B' & C') & D & <- & <-). unfold adjacent, gdist, adist in D. unfold pos. lia.
Qed.
Lemma steps2 n s s' x : 1 <= x -> fld s = [1; x] -> steps idR (fun _ => True) 2 1 1 1 t9 n s s' ->
  (fld s' = [1; x] /\ n = 0%nat) \/ (fld s' = [1; 2] /\ (n <= 1)%nat).
Proof.
  intros X F ST. pose proof t9_bound as T. destruct ST as [s | n s iter v u s' W E V ST]; [left; auto|]. right.
  rewrite F in V. destruct V as [V1 V2]. unfold Limgrad.S2, Limgrad.T, idR in V2.
  destruct (edge2 u v E) as [[-> ->] | [-> ->]]; cbn [nth] in V1, V2; [|lra].
  inversion ST as [q | m q iter2 v2 u2 q' W2 E2 [V3 V4] ST2]; subst.
  - cbn [upd_state fld]. rewrite F. cbn [nth upd]. unfold Limgrad.T, idR. split; [|lia]. repeat f_equal; lra.
  - exfalso. cbn [upd_state fld] in V3, V4. rewrite F in V3, V4. cbn [nth upd] in V3, V4. unfold Limgrad.S2, Limgrad.T, idR in V3, V4.
    destruct (edge2 u2 v2 E2) as [[-> ->] | [-> ->]]; cbn [nth] in V3, V4; lra.
Qed.
Lemma limgrad2 x : 1 <= x -> limgrad idR (Z.of_nat 2) (Z.of_nat 1) (Z.of_nat 1) 1 1 max_sweeps [1; x] = Some [1; if Rltb (2 + t9) x then 2 else x].
Proof.
  intro X. pose proof t9_bound as T.
  destruct (limgrad_run idR (fun _ => True) idR_rounding 2 1 1 1 1 max_sweeps [1; x]) as (n & act' & out & b & E & ST & W & W' & BT & BF & _); try lra; try reflexivity.
  { unfold valid_dims. lia. } { apply Forall_forall; auto. } { intros y [<- | [<- | []]]; lra. }
  rewrite ftol2 in ST, BT by exact X. replace (idR (1 * 1)) with 1 in ST, BT by (unfold idR; ring).
  destruct (steps2 n (mkL [1; x] (repeat (-1)%Z (2 * 1 * 1))) (mkL out act') x X eq_refl ST) as [[F N] | [F N]]; cbn [fld] in F; subst out.
  - destruct b; [|specialize (BF eq_refl); unfold max_sweeps in BF; lia]. unfold limgrad. rewrite E. cbn. do 3 f_equal.
    destruct (Rltb (2 + t9) x) eqn:Q; [|reflexivity]. apply Rltb_true in Q. exfalso. apply (BT eq_refl 0%nat 1%nat).
    + exists (0, 0, 0)%nat, (1, 0, 0)%nat. repeat split; cbn; lia.
    + split; cbn [nth]; [lra|]. unfold Limgrad.S2, Limgrad.T, idR. lra.
  - unfold limgrad. rewrite E. cbn. do 3 f_equal. destruct (Rltb (2 + t9) x) eqn:Q; [reflexivity|]. apply Rltb_false in Q.
    inversion ST as [q | m q iter2 v2 u2 q' W2 E2 [V3 V4] ST2]; subst.
    + congruence.
    + exfalso. unfold Limgrad.S2, Limgrad.T, idR in V4. destruct (edge2 u2 v2 E2) as [[-> ->] | [-> ->]]; cbn [nth fld] in V3, V4; lra.
Qed.
(** a column of two samples, 1 m apart; 1000 Hz, one cell per wavelength, grade 1 *)
Definition col (x : R) : garr := mkArr 2 2 1 1 (fun i _ _ => if Nat.eqb i 0 then 1000 else 1000 * x).
Definition o99 (grade : R) : opts := mkOpts (Some 1500) 1 10000 1 1000 0 grade 1 0 1 PadEdge 0 MS.
Definition b99 : bbox := [0; 2; 0; 1].
Definition s99 (x : R) : garr := clamp 1 10000 (amap2 Rmin (amap (fun v => v / (1000 * 1)) (col x)) (amap (fun _ => 99999) (col x))).
Lemma s99_at x i j k : 1 <= x <= 10000 -> av (s99 x) i j k = if Nat.eqb i 0 then 1 else x.
Proof.
  intro X. unfold s99, clamp, amap2, amap, col; cbn [av]. unfold Rgtb. destruct (Nat.eqb i 0).
  - replace (1000 / (1000 * 1)) with 1 by lra. rewrite Rmin_left by lra. rb. reflexivity.
  - replace (1000 * x / (1000 * 1)) with x by lra. rewrite Rmin_left by lra. rb. reflexivity.
Qed.
Lemma sizing99 x win : 1 <= x <= 10000 -> get_sizing (uniform_filter win) (o99 1) b99 (col x) = SzOk (reshapeF 2 2 1 1 [1; if Rltb (2 + t9) x then 2 else x], col x, b99).
Proof.
  intro X. assert (PR : prepare_vp (o99 1) (col x) = SzOk (col x)).
  { unfold prepare_vp, o99. cbn [o_vp_water o_units convert_units]. apply water_row0_kept. intros i j k _ _. cbn [col av]. destruct (Nat.eqb i 0); lra. }
  unfold get_sizing. rewrite PR. cbn [sbind]. unfold bbox_dim, b99. cbn [length Nat.eqb].
  unfold initial_size, o99. cbn [o_wl o_grad o_hmin o_hmax o_cr_max o_dt o_space_order o_grade o_pad_style o_domain_pad o_freq].
  unfold Rgtb at 1. rewrite (proj2 (Rltb_true 0 1)) by lra. cbn [orb].
  unfold wavelength_sizing. rewrite (proj2 (Reqb_false 1 0)), (proj2 (Rltb_false 1 0)), (proj2 (Rltb_false 1000 0)), (proj2 (Reqb_false (1000 * 1) 0)) by lra. cbn [sbind].
  unfold gradient_sizing. rewrite (proj2 (Reqb_true 0 0)) by lra. cbn [sbind].
  rewrite (courant_off (uniform_filter win) _ _ 1 0 1 (or_intror (or_introl eq_refl))). cbn [sbind].
  fold (s99 x). unfold gradation. rewrite (proj2 (Reqb_false 1 0)), (proj2 (Rltb_false 1 0)) by lra.
  assert (FL : flattenF (s99 x) = [1; x]). { assert (E : flattenF (s99 x) = [av (s99 x) 0 0 0; av (s99 x) 1 0 0]%nat) by reflexivity. rewrite E, !s99_at by exact X. reflexivity. }
  rewrite FL. cbn [bget nth n0 n1 n2 adim s99 clamp amap amap2 col]. replace (INR 2) with 2 by (cbn; ring). replace ((2 - 0) / 2) with 1 by lra.
  change (fun x : R => x) with idR. rewrite limgrad2 by lra. cbn [sbind]. unfold domain_pad, Rgtb. rewrite (proj2 (Rltb_false 0 0)) by lra. reflexivity.
Qed.
(** grading is not monotone: a larger velocity at the second sample gives a smaller size there *)
Theorem C99_larger_velocity_smaller_size_refuted : forall win, exists o b vp vp' a v d a' v' d', sensible o b vp /\ no_slower o o vp vp' /\ no_finer o o /\ 0 < o_grade o /\ o_domain_pad o = 0 /\
  get_sizing (uniform_filter win) o b vp = SzOk (a, v, d) /\ get_sizing (uniform_filter win) o b vp' = SzOk (a', v', d') /\
  has a 1 0 0 /\ av a' 1%nat 0%nat 0%nat < av a 1%nat 0%nat 0%nat.
Proof.
  intro win. pose proof t9_bound as T. exists (o99 1), b99, (col (2 + t9)), (col 3), (reshapeF 2 2 1 1 [1; 2 + t9]), (col (2 + t9)), b99, (reshapeF 2 2 1 1 [1; 2]), (col 3), b99.
  split; [|split; [|split; [|split; [|split; [|split; [|split; [|split]]]]]]].
  - unfold sensible, col. cbn [adim n0 n1 n2 av]. repeat split; try lia; try (cbn; lra). intros i j k _. destruct (Nat.eqb i 0); lra.
  - split; [reflexivity|]. right. split; [reflexivity|]. split; [split; [reflexivity|]|]; intros i j k _; cbn; destruct (Nat.eqb i 0); lra.
  - unfold no_finer. cbn. repeat split; try lra; first [left; lra | right; lra].
  - cbn. lra.
  - reflexivity.
  - rewrite (sizing99 (2 + t9) win) by lra. rewrite (proj2 (Rltb_false (2 + t9) (2 + t9))) by lra. reflexivity.
  - rewrite (sizing99 3 win) by lra. rewrite (proj2 (Rltb_true (2 + t9) 3)) by lra. reflexivity.
  - unfold has. cbn. lia.
  - cbn. lra.
Qed.
Print Assumptions C99_larger_velocity_smaller_size_refuted.
(** switching wl off is not asking for larger sizes: without wl and grad all sizes are hmin, the smallest allowed *)
Theorem C99_off_is_finest : forall win o b vp a v d, sensible o b vp -> o_wl o = 0 -> o_grad o = 0 -> o_dt o = 0 -> o_domain_pad o = 0 ->
  get_sizing (uniform_filter win) o b vp = SzOk (a, v, d) -> forall i j k, has a i j k -> av a i j k = o_hmin o.
Proof.
  intros win o b vp a v d S W G DT PZ H i j k I. pose proof (sensible_grid _ _ _ S) as IG. destruct S as (AD & N0 & _ & _ & _ & NN & BX & HM).
  destruct (get_sizing_inv _ _ _ _ _ _ _ H) as (v1 & a0 & c & e & P1 & _ & I1 & C1 & G1 & D1 & S1 & S0 & S2 & S3).
  unfold initial_size in I1. rewrite W, G in I1. unfold Rgtb in I1. rewrite (proj2 (Rltb_false 0 0)) in I1 by lra. cbn [orb] in I1. injection I1 as <-.
  rewrite DT, courant_off in C1 by auto. injection C1 as <-.
  rewrite PZ in D1. unfold domain_pad, Rgtb in D1. rewrite (proj2 (Rltb_false 0 0)) in D1 by lra. injection D1 as <- <- <-.
  set (c := clamp (o_hmin o) (o_hmax o) (amap (fun _ => o_hmin o) v1)) in *.
  assert (CV : forall i j k, av c i j k = o_hmin o).
  { intros x y z. unfold c. cbn. unfold Rgtb. rewrite (proj2 (Rltb_false (o_hmin o) (o_hmin o))), (proj2 (Rltb_false (o_hmax o) (o_hmin o))) by lra. reflexivity. }
  assert (EN : 0 <= (bget b 1 - bget b 0) / INR (n0 v1)) by (apply (elen_nonneg b v1); [destruct S1 as (_ & -> & _); exact N0 | exact BX]).
  destruct (gradation_bounds c _ _ e (o_hmin o) (shape_int_grid _ _ (shape_eq_sym _ _ S2) IG) EN ltac:(lra) ltac:(intros; rewrite CV; lra) G1 i j k) as [L U].
  - exact (shape_eq_inr _ _ _ _ _ (gradation_shape _ _ _ _ G1) I).
  - rewrite CV in U. lra.
Qed.
Print Assumptions C99_off_is_finest.
(** the hypotheses of C99_grading are met, with the tolerance of C02 *)
Example C99_case : sensible (o99 1) b99 (col 3) /\ no_slower (o99 1) (o99 2) (col 3) (col 4) /\ no_finer (o99 1) (o99 2) /\
  (exists a v d, get_sizing (uniform_filter []) (o99 1) b99 (col 3) = SzOk (a, v, d) /\ graded (n0 a) (n1 a) (n2 a) ((bget b99 1 - bget b99 0) / INR (n0 (col 3)) * 1 + 1 * t9) (flattenF a)).
Proof.
  pose proof t9_bound as T. split; [|split; [|split]].
  - unfold sensible, col. cbn [adim n0 n1 n2 av]. repeat split; try lia; try (cbn; lra). intros i j k _. destruct (Nat.eqb i 0); lra.
  - split; [reflexivity|]. right. split; [reflexivity|]. split; [split; [reflexivity|]|]; intros i j k _; cbn; destruct (Nat.eqb i 0); lra.
  - unfold no_finer. cbn. repeat split; try lra; first [left; lra | right; lra].
  - eexists _, _, _. split; [apply sizing99; lra|]. rewrite (proj2 (Rltb_true (2 + t9) 3)) by lra.
    assert (E : flattenF (reshapeF 2 2 1 1 [1; 2]) = [1; 2]) by reflexivity. rewrite E. cbn [bget b99 nth n0 n1 n2 reshapeF col]. replace (INR 2) with 2 by (cbn; ring).
    intros [[i j] k] [[i' j'] k'] (A & B & C) (A' & B' & C') D. unfold adjacent, gdist, adist in D. unfold val, pos. assert (j = 0 /\ k = 0 /\ j' = 0 /\ k' = 0)%nat as (-> & -> & -> & ->) by lia.
    assert ((i = 0 /\ i' = 1) \/ (i = 1 /\ i' = 0))%nat as [[-> ->] | [-> ->]] by lia; cbn [Nat.add Nat.mul nth]; apply Rabs_le_iff; lra.
Qed.
