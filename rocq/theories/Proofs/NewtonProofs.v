From Coq Require Import Reals List Arith Bool Lra Lia.
From Verif Require Import Model.Base Model.SDF Model.Mesh Model.Laplace Model.Newton Spec.Geom Spec.Plane.
From Verif Require Import Proofs.ListAux Proofs.MeshAux Proofs.Euclid Proofs.ForceProofs.
Import ListNotations.
Local Open Scope R_scope.

Lemma inner_ge0 a : 0 <= inner a a.
Proof. induction a as [|x a IH]; cbn [inner]; [lra|]. pose proof (Rle_0_sqr x). unfold Rsqr in *. lra. Qed.
Lemma inner_rtotal a : rtotal (map (fun v => v * v) a) = inner a a.
Proof. induction a as [|x a IH]; [reflexivity|]. cbn [map inner]. rewrite <- IH. reflexivity. Qed.
Lemma along_length x : forall s a, length x = length a -> length (along x s a) = length x.
Proof. induction x as [|u x IH]; intros s [|v a] H; cbn in *; try discriminate; [reflexivity|]. rewrite IH by congruence. reflexivity. Qed.
Lemma inner_along a : forall x s, length x = length a -> inner a (along x s a) = inner a x + s * inner a a.
Proof. induction a as [|v a IH]; intros [|u x] s H; cbn in *; try discriminate; [lra|]. rewrite IH by congruence. ring. Qed.
Lemma along_zero x : forall a, length x = length a -> along x 0 a = x.
Proof. induction x as [|u x IH]; intros [|v a] H; cbn in *; try discriminate; [reflexivity|]. rewrite IH by congruence. f_equal. ring. Qed.
Lemma sqdist_along x : forall s a, length x = length a -> sqdist x (along x s a) = s * s * inner a a.
Proof. induction x as [|u x IH]; intros s [|v a] H; cbn in *; try discriminate; [ring|]. rewrite IH by congruence. ring. Qed.
Lemma inner_cauchy a : forall x y, length x = length a -> length y = length a ->
  (inner a x - inner a y) * (inner a x - inner a y) <= inner a a * sqdist x y.
Proof.
  induction a as [|v a IH]; intros [|u x] [|w y] H1 H2; cbn in *; try discriminate; [lra|].
  replace (v * u + inner a x - (v * w + inner a y)) with (v * (u - w) + (inner a x - inner a y)) by ring.
  replace ((u - w) * ((u - w) * 1)) with ((u - w) * (u - w)) by ring. apply cs_step; [apply inner_ge0|apply sqdist_nonneg|]. apply IH; congruence.
Qed.

Lemma axis_step_bump x i deps : (i < length x)%nat -> map2 Rplus x (deps_vec (length x) deps i) = axis_step x i deps.
Proof.
  unfold deps_vec, axis_step. revert i. induction x as [|u x IH]; intros i H; cbn [length] in *; [lia|].
  cbn [seq map]. unfold map2 in *. cbn [combine map fst snd]. destruct i as [|i].
  - cbn [firstn skipn app Nat.eqb]. f_equal. assert (forall (l : list R) m, map (fun q => fst q + snd q) (combine l (map (fun k : nat => if (k =? 0)%nat then deps else 0) (seq (S m) (length l)))) = l) as K.
    { clear. induction l as [|w l IH]; intros m; [reflexivity|]. cbn [length seq map combine fst snd Nat.eqb]. rewrite IH. f_equal. lra. }
    apply K.
  - cbn [firstn skipn app Nat.eqb]. f_equal; [lra|]. rewrite <- IH by lia. rewrite <- seq_shift, map_map. reflexivity.
Qed.
Lemma inner_axis a : forall x i s, length x = length a -> (i < length x)%nat -> inner a (axis_step x i s) = inner a x + nth i a 0 * s.
Proof.
  unfold axis_step. induction a as [|v a IH]; intros [|u x] i s H L; cbn [length] in *; try lia. destruct i as [|i].
  - cbn [firstn skipn app inner nth]. ring.
  - cbn [firstn skipn app inner nth]. rewrite IH by lia. ring.
Qed.
Lemma dgrads_affine f c a x deps : 0 < deps -> length x = length a -> affine_near f c a x deps -> dgrads f deps x = a.
Proof.
  intros H L [E0 E1]. unfold dgrads. rewrite (list_seq a 0) at 1. rewrite <- L. apply map_ext_in. intros i I. apply in_seq in I.
  rewrite axis_step_bump by lia. rewrite E1 by lia. rewrite E0, inner_axis by lia. field. lra.
Qed.
Lemma dgrads_length f deps x : length (dgrads f deps x) = length x.
Proof. unfold dgrads. rewrite map_length, seq_length. reflexivity. Qed.
Lemma newton_along f deps alpha x : newton f deps alpha x = along x (- (alpha * f x / dgrad2 deps (dgrads f deps x))) (dgrads f deps x).
Proof.
  unfold newton. generalize (dgrad2 deps (dgrads f deps x)) as g2. intros g2. pose proof (dgrads_length f deps x) as L. revert L.
  generalize (f x) as d. intros d. generalize (dgrads f deps x) as g. intros g. revert g. induction x as [|u x IH]; intros [|v g] L; cbn in L; try discriminate; [reflexivity|].
  unfold map2 in *. cbn [combine map fst snd along]. rewrite IH by congruence. f_equal. unfold Rdiv. ring.
Qed.
Lemma newton_length f deps alpha x : length (newton f deps alpha x) = length x.
Proof. rewrite newton_along, along_length; [reflexivity|rewrite dgrads_length; reflexivity]. Qed.
Lemma newton_zero f deps alpha x : f x = 0 -> newton f deps alpha x = x.
Proof.
  intros E. rewrite newton_along, E. replace (- (alpha * 0 / dgrad2 deps (dgrads f deps x))) with 0; [apply along_zero; rewrite dgrads_length; reflexivity|].
  unfold Rdiv. ring.
Qed.
Lemma dgrad2_val deps g : dgrad2 deps g = Rmax deps (inner g g).
Proof. unfold dgrad2. rewrite inner_rtotal. unfold Rltb, Rmax. destruct (Rlt_dec _ _), (Rle_dec _ _); lra. Qed.
Lemma newton_affine f c a x deps : 0 < deps -> length x = length a -> affine_near f c a x deps ->
  newton f deps 1 x = along x (- (f x / Rmax deps (inner a a))) a.
Proof.
  intros H L A. rewrite newton_along, (dgrads_affine f c a x deps H L A), dgrad2_val. f_equal. unfold Rdiv. ring.
Qed.
Lemma newton_residual f c a x deps : 0 < deps -> length x = length a -> affine_near f c a x deps ->
  f (newton f deps 1 x) = c + inner a (newton f deps 1 x) -> f (newton f deps 1 x) = f x * (1 - inner a a / Rmax deps (inner a a)).
Proof.
  intros H L A E. rewrite E, (newton_affine f c a x deps H L A), inner_along by exact L. destruct A as [E0 _]. rewrite E0. field.
  pose proof (Rmax_l deps (inner a a)). lra.
Qed.
Lemma newton_hits f c a x deps : 0 < deps -> length x = length a -> affine_near f c a x deps -> deps <= inner a a ->
  f (newton f deps 1 x) = c + inner a (newton f deps 1 x) -> f (newton f deps 1 x) = 0.
Proof. intros H L A G E. rewrite (newton_residual f c a x deps H L A E), Rmax_right by exact G. field. lra. Qed.
Lemma newton_nearest f c a x deps y : 0 < deps -> length x = length a -> length y = length a -> affine_near f c a x deps -> deps <= inner a a ->
  c + inner a y = 0 -> edist x (newton f deps 1 x) <= edist x y.
Proof.
  intros H L L2 A G Y. rewrite (newton_affine f c a x deps H L A), Rmax_right by exact G. unfold edist. apply sqrt_le_1; [apply sqdist_nonneg..|].
  rewrite sqdist_along by exact L. pose proof (inner_cauchy a x y L L2) as C. destruct A as [E0 _].
  replace (inner a x - inner a y) with (f x) in C by (rewrite E0; lra). set (n := inner a a) in *. assert (0 < n) by lra.
  replace (- (f x / n) * - (f x / n) * n) with (f x * f x / n) by (field; lra).
  apply Rmult_le_reg_r with n; [assumption|]. replace (f x * f x / n * n) with (f x * f x) by (field; lra). lra.
Qed.
Lemma newton_step_bound f deps alpha x : 0 < deps -> edist x (newton f deps alpha x) <= Rabs (alpha * f x) / sqrt deps.
Proof.
  intros H. rewrite newton_along. set (g := dgrads f deps x). assert (length x = length g) as L by (unfold g; rewrite dgrads_length; reflexivity).
  rewrite dgrad2_val. set (n := inner g g). assert (0 <= n) as Hn by apply inner_ge0. pose proof (Rmax_l deps n) as M1. pose proof (Rmax_r deps n) as M2. set (M := Rmax deps n) in *.
  unfold edist. rewrite sqdist_along by exact L. fold n.
  assert (0 < sqrt deps) as HS by (apply sqrt_lt_R0, H).
  assert (Rabs (alpha * f x) / sqrt deps = sqrt (alpha * f x * (alpha * f x) / deps)) as ->.
  { rewrite sqrt_div_alt by exact H. f_equal. symmetry. rewrite <- sqrt_Rsqr_abs. reflexivity. }
  assert (0 < M) by lra. set (e := alpha * f x).
  replace (- (e / M) * - (e / M) * n) with (e * e * (n / (M * M))) by (field; lra). unfold Rdiv at 2. apply sqrt_le_1.
  - apply Rmult_le_pos; [apply Rle_0_sqr|]. apply Rmult_le_pos; [exact Hn|]. left. apply Rinv_0_lt_compat. nra.
  - apply Rmult_le_pos; [apply Rle_0_sqr|]. left. apply Rinv_0_lt_compat, H.
  - apply Rmult_le_compat_l; [apply Rle_0_sqr|]. apply Rmult_le_reg_r with (M * M * deps); [apply Rmult_lt_0_compat; nra|].
    replace (n / (M * M) * (M * M * deps)) with (n * deps) by (field; lra). replace (/ deps * (M * M * deps)) with (M * M) by (field; lra). nra.
Qed.
Lemma newton_flat f deps alpha x : (forall i, (i < length x)%nat -> f (axis_step x i deps) = f x) -> newton f deps alpha x = x.
Proof.
  intros H. rewrite newton_along. assert (dgrads f deps x = map (fun _ => 0) (seq 0 (length x))) as ->.
  { unfold dgrads. apply map_ext_in. intros i I. apply in_seq in I. rewrite axis_step_bump, H by lia. unfold Rdiv. ring. }
  generalize (- (alpha * f x / dgrad2 deps (map (fun _ : nat => 0) (seq 0 (length x))))) as s. intros s. clear. generalize 0%nat. induction x as [|u x IH]; intros n; [reflexivity|].
  cbn [length seq map along]. rewrite IH. f_equal. ring.
Qed.

(** ---- the sweeps of the final level-set improvement ---- *)
Lemma improve_loop_spec f deps bid its : forall alpha p,
  length (improve_loop f deps bid its alpha p) = length p /\
  (forall v, (v < length p)%nat -> ~ In v bid -> nth v (improve_loop f deps bid its alpha p) [] = nth v p []) /\
  (forall v, (v < length p)%nat -> In v bid -> f (nth v p []) = 0 -> nth v (improve_loop f deps bid its alpha p) [] = nth v p []) /\
  (forall v, (v < length p)%nat -> length (nth v (improve_loop f deps bid its alpha p) []) = length (nth v p [])).
Proof.
  induction its as [|it its IH]; intros alpha p; cbn [improve_loop]; [auto|].
  set (p' := map _ (seq 0 (length p))). specialize (IH (alpha / INR (S it)) p'). assert (length p' = length p) as L by (unfold p'; rewrite map_length, seq_length; reflexivity).
  assert (forall v, (v < length p)%nat -> nth v p' [] = if existsb (Nat.eqb v) bid then newton f deps alpha (nth v p []) else nth v p []) as E.
  { intros v H. unfold p'. rewrite nth_map' with (d' := O) by (rewrite seq_length; exact H). rewrite seq_nth by exact H. reflexivity. }
  assert (forall v, existsb (Nat.eqb v) bid = true <-> In v bid) as K.
  { intros v. rewrite existsb_exists. split; [intros [x [I Q]]; apply Nat.eqb_eq in Q; congruence|intros I; exists v; split; [exact I|apply Nat.eqb_refl]]. }
  destruct IH as (I1 & I2 & I3 & I4). rewrite L in *. split; [exact I1|]. split; [|split].
  - intros v H N. rewrite I2 by assumption. rewrite E by exact H. destruct (existsb _ _) eqn:Q; [apply K in Q; contradiction|reflexivity].
  - intros v H I Z. assert (nth v p' [] = nth v p []) as Q by (rewrite E, (proj2 (K v) I) by exact H; apply newton_zero, Z).
    rewrite I3; [exact Q|exact H|exact I|rewrite Q; exact Z].
  - intros v H. rewrite I4, E by exact H. destruct (existsb _ _); [apply newton_length|reflexivity].
Qed.
Lemma improve_loop_first f deps bid its p v : (v < length p)%nat -> In v bid -> f (newton f deps 1 (nth v p [])) = 0 ->
  nth v (improve_loop f deps bid (O :: its) 1 p) [] = newton f deps 1 (nth v p []).
Proof.
  intros H I Z. cbn [improve_loop]. set (p' := map _ (seq 0 (length p))).
  assert (length p' = length p) as L by (unfold p'; rewrite map_length, seq_length; reflexivity).
  assert (nth v p' [] = newton f deps 1 (nth v p [])) as E.
  { unfold p'. rewrite nth_map' with (d' := O) by (rewrite seq_length; exact H). rewrite seq_nth by exact H. cbn [plus].
    assert (existsb (Nat.eqb v) bid = true) as -> by (apply existsb_exists; exists v; split; [exact I|apply Nat.eqb_refl]). reflexivity. }
  destruct (improve_loop_spec f deps bid its (1 / INR 1) p') as (_ & _ & I3 & _). rewrite <- E. apply I3; [lia|exact I|rewrite E; exact Z].
Qed.
