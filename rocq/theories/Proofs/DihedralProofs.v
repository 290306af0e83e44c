From Coq Require Import List ZArith Reals Bool Arith Lia Lra Permutation.
From Verif Require Import Model.Base Model.SDF Model.Mesh Model.Formulas Model.Dihedral Spec.Linear Spec.Dihedral Spec.MeshTopo
  Proofs.ListAux Proofs.MeshAux Proofs.EdgeProofs.
Import ListNotations.
Local Open Scope R_scope.

(** ---- scalar identities ---- *)
Lemma sqrt_pos_eq x y : 0 <= y -> y * y = x -> sqrt x = y.
Proof. intros H <-. apply sqrt_square, H. Qed.
Lemma sqrt_sq x : 0 <= x -> sqrt x * sqrt x = x.
Proof. apply sqrt_def. Qed.
Definition dot3 (u1 u2 u3 w1 w2 w3 : R) := u1 * w1 + u2 * w2 + u3 * w3.
Lemma inner3 u1 u2 u3 w1 w2 w3 : inner [u1;u2;u3] [w1;w2;w3] = dot3 u1 u2 u3 w1 w2 w3.
Proof. unfold dot3. cbn. ring. Qed.
Lemma dot_product3 u1 u2 u3 w1 w2 w3 : dot_product [u1;u2;u3] [w1;w2;w3] = dot3 u1 u2 u3 w1 w2 w3.
Proof. unfold dot3, dot_product, map2. cbn. ring. Qed.
Lemma l2_norm3 u1 u2 u3 : l2_norm [u1;u2;u3] = sqrt (dot3 u1 u2 u3 u1 u2 u3).
Proof. unfold l2_norm, dot3. cbn. f_equal. ring. Qed.
Lemma lagrange u1 u2 u3 w1 w2 w3 : l2_norm (cross_product [u1;u2;u3] [w1;w2;w3]) =
  sqrt (dot3 u1 u2 u3 u1 u2 u3 * dot3 w1 w2 w3 w1 w2 w3 - dot3 u1 u2 u3 w1 w2 w3 ^ 2).
Proof. unfold cross_product. cbn [nth]. rewrite l2_norm3. f_equal. unfold dot3. ring. Qed.
Lemma dot3_nonneg u1 u2 u3 : 0 <= dot3 u1 u2 u3 u1 u2 u3.
Proof. unfold dot3. pose proof (Rle_0_sqr u1). pose proof (Rle_0_sqr u2). pose proof (Rle_0_sqr u3). unfold Rsqr in *. lra. Qed.
Lemma gram_nonneg u1 u2 u3 w1 w2 w3 : 0 <= dot3 u1 u2 u3 u1 u2 u3 * dot3 w1 w2 w3 w1 w2 w3 - dot3 u1 u2 u3 w1 w2 w3 ^ 2.
Proof.
  replace (dot3 u1 u2 u3 u1 u2 u3 * dot3 w1 w2 w3 w1 w2 w3 - dot3 u1 u2 u3 w1 w2 w3 ^ 2) with
    (Rsqr (u2 * w3 - u3 * w2) + Rsqr (u3 * w1 - u1 * w3) + Rsqr (u1 * w2 - u2 * w1)) by (unfold dot3, Rsqr; ring).
  pose proof (Rle_0_sqr (u2 * w3 - u3 * w2)). pose proof (Rle_0_sqr (u3 * w1 - u1 * w3)). pose proof (Rle_0_sqr (u1 * w2 - u2 * w1)). lra.
Qed.
(** everything in terms of the Gram matrix: u the edge, v and w the other two vectors *)
Section Gram.
Variables uu vv ww uv uw vw : R.
Hypothesis Huu : 0 < uu.
Hypothesis Hvv : 0 < vv.
Hypothesis Hww : 0 < ww.
Lemma gram_cross a b x : 0 < a -> 0 < b -> 0 <= a * b - x ^ 2 ->
  sqrt ((a / (sqrt a * sqrt a)) * (b / (sqrt b * sqrt b)) - (x / (sqrt a * sqrt b)) ^ 2) = sqrt (a * b - x ^ 2) / (sqrt a * sqrt b).
Proof.
  intros Ha Hb H. pose proof (sqrt_lt_R0 _ Ha) as Sa. pose proof (sqrt_lt_R0 _ Hb) as Sb.
  apply sqrt_pos_eq.
  - apply Rmult_le_pos; [apply sqrt_pos|]. left. apply Rinv_0_lt_compat, Rmult_lt_0_compat; assumption.
  - replace (sqrt (a * b - x ^ 2) / (sqrt a * sqrt b) * (sqrt (a * b - x ^ 2) / (sqrt a * sqrt b))) with
      ((sqrt (a * b - x ^ 2) * sqrt (a * b - x ^ 2)) / ((sqrt a * sqrt a) * (sqrt b * sqrt b))) by (field; split; lra).
    replace ((x / (sqrt a * sqrt b)) ^ 2) with (x ^ 2 / ((sqrt a * sqrt a) * (sqrt b * sqrt b))) by (field; split; lra).
    rewrite (sqrt_sq (a * b - x ^ 2)) by exact H. rewrite !sqrt_sq by lra. field. split; lra.
Qed.
End Gram.

Section One.
Variables u1 u2 u3 v1 v2 v3 w1 w2 w3 : R.
Let uu := dot3 u1 u2 u3 u1 u2 u3.
Let vv := dot3 v1 v2 v3 v1 v2 v3.
Let ww := dot3 w1 w2 w3 w1 w2 w3.
Let uv := dot3 u1 u2 u3 v1 v2 v3.
Let uw := dot3 u1 u2 u3 w1 w2 w3.
Let vw := dot3 v1 v2 v3 w1 w2 w3.
Let G2 := uu * vv - uv ^ 2.
Let G3 := uu * ww - uw ^ 2.
Let N := uu * vw - uv * uw.
Lemma G2_nn : 0 <= G2. Proof. apply gram_nonneg. Qed.
Lemma G3_nn : 0 <= G3. Proof. apply gram_nonneg. Qed.
Lemma gram_det : G2 * G3 - N ^ 2 = uu * Rsqr (u1 * (v2 * w3 - v3 * w2) - u2 * (v1 * w3 - v3 * w1) + u3 * (v1 * w2 - v2 * w1)).
Proof. unfold G2, G3, N, uu, vv, ww, uv, uw, vw, dot3, Rsqr. ring. Qed.
Definition unit_of (x y z : R) := let n := l2_norm [x; y; z] in [x / n; y / n; z / n].
Lemma code_value : 0 < uu -> 0 < vv -> 0 < ww ->
  l2_norm (cross_product (unit_of u1 u2 u3) (unit_of v1 v2 v3)) = sqrt G2 / (sqrt uu * sqrt vv) /\
  l2_norm (cross_product (unit_of u1 u2 u3) (unit_of w1 w2 w3)) = sqrt G3 / (sqrt uu * sqrt ww) /\
  dot_product (unit_of v1 v2 v3) (unit_of w1 w2 w3) - dot_product (unit_of u1 u2 u3) (unit_of v1 v2 v3) * dot_product (unit_of u1 u2 u3) (unit_of w1 w2 w3)
   = N / (uu * (sqrt vv * sqrt ww)).
Proof.
  intros Hu Hv Hw. pose proof (sqrt_lt_R0 _ Hu) as Su. pose proof (sqrt_lt_R0 _ Hv) as Sv. pose proof (sqrt_lt_R0 _ Hw) as Sw.
  unfold unit_of. rewrite !l2_norm3. fold uu vv ww. rewrite !lagrange, !dot_product3.
  assert (forall x1 x2 x3 y1 y2 y3 m n, m <> 0 -> n <> 0 -> dot3 (x1 / m) (x2 / m) (x3 / m) (y1 / n) (y2 / n) (y3 / n) = dot3 x1 x2 x3 y1 y2 y3 / (m * n)) as D.
  { intros. unfold dot3. field. split; assumption. }
  rewrite !D by lra. fold uu vv ww uv uw vw. split; [|split].
  - apply gram_cross; try assumption. apply G2_nn.
  - apply gram_cross; try assumption. apply G3_nn.
  - unfold N. replace (uu * (sqrt vv * sqrt ww)) with ((sqrt uu * sqrt uu) * (sqrt vv * sqrt ww)) by (rewrite sqrt_sq by lra; reflexivity).
    replace (uu * vw - uv * uw) with ((sqrt uu * sqrt uu) * vw - uv * uw) by (rewrite sqrt_sq by lra; reflexivity). field. repeat split; lra.
Qed.
Definition code_angle : option R :=
  if Reqb (l2_norm [u1;u2;u3]) 0 || Reqb (l2_norm [v1;v2;v3]) 0 || Reqb (l2_norm [w1;w2;w3]) 0 then None
  else let den := l2_norm (cross_product (unit_of u1 u2 u3) (unit_of v1 v2 v3)) * l2_norm (cross_product (unit_of u1 u2 u3) (unit_of w1 w2 w3)) in
    if Reqb den 0 then None
    else Some (acos ((dot_product (unit_of v1 v2 v3) (unit_of w1 w2 w3) - dot_product (unit_of u1 u2 u3) (unit_of v1 v2 v3) * dot_product (unit_of u1 u2 u3) (unit_of w1 w2 w3)) / den)).
Lemma norm_zero x y z : Reqb (l2_norm [x;y;z]) 0 = false <-> 0 < dot3 x y z x y z.
Proof.
  rewrite l2_norm3. pose proof (dot3_nonneg x y z) as H. rewrite Reqb_false. split.
  - intros NZ. destruct (Rle_lt_or_eq_dec _ _ H) as [L|E]; [exact L|]. exfalso. apply NZ. rewrite <- E. apply sqrt_0.
  - intros L E. apply sqrt_lt_R0 in L. lra.
Qed.
Lemma gram_pos_side a b x : 0 < a -> 0 < a * b - x ^ 2 -> 0 < b.
Proof.
  intros Ha H. apply (Rmult_lt_reg_l a); [exact Ha|]. rewrite Rmult_0_r. pose proof (pow2_ge_0 x). lra.
Qed.
Lemma code_angle_spec phi : code_angle = Some phi <-> 0 < uu /\ 0 < G2 /\ 0 < G3 /\ 0 <= phi <= PI /\ N = cos phi * sqrt G2 * sqrt G3.
Proof.
  unfold code_angle. pose proof G2_nn as N2. pose proof G3_nn as N3. split.
  - destruct (Reqb (l2_norm [u1;u2;u3]) 0) eqn:E1; [discriminate|]. destruct (Reqb (l2_norm [v1;v2;v3]) 0) eqn:E2; [discriminate|].
    destruct (Reqb (l2_norm [w1;w2;w3]) 0) eqn:E3; [discriminate|]. apply norm_zero in E1. apply norm_zero in E2. apply norm_zero in E3. cbn [orb].
    fold uu in E1. fold vv in E2. fold ww in E3. destruct (code_value E1 E2 E3) as [-> [-> ->]].
    pose proof (sqrt_lt_R0 _ E1) as Su. pose proof (sqrt_lt_R0 _ E2) as Sv. pose proof (sqrt_lt_R0 _ E3) as Sw. cbv zeta.
    destruct (Reqb _ 0) eqn:ED; [discriminate|]. apply Reqb_false in ED. intros H. injection H as <-.
    assert (0 < G2) as P2.
    { destruct (Rle_lt_or_eq_dec _ _ N2) as [L|E]; [exact L|]. exfalso. apply ED. rewrite <- E, sqrt_0. unfold Rdiv. ring. }
    assert (0 < G3) as P3.
    { destruct (Rle_lt_or_eq_dec _ _ N3) as [L|E]; [exact L|]. exfalso. apply ED. rewrite <- E, sqrt_0. unfold Rdiv. ring. }
    pose proof (sqrt_lt_R0 _ P2) as S2. pose proof (sqrt_lt_R0 _ P3) as S3.
    assert (N / (uu * (sqrt vv * sqrt ww)) / (sqrt G2 / (sqrt uu * sqrt vv) * (sqrt G3 / (sqrt uu * sqrt ww))) = N / (sqrt G2 * sqrt G3)) as ->.
    { replace (uu * (sqrt vv * sqrt ww)) with ((sqrt uu * sqrt uu) * (sqrt vv * sqrt ww)) by (rewrite sqrt_sq by lra; reflexivity). field. repeat split; lra. }
    split; [exact E1|]. split; [exact P2|]. split; [exact P3|]. split; [apply acos_bound|].
    rewrite cos_acos; [field; split; lra|].
    assert (N ^ 2 <= (sqrt G2 * sqrt G3) ^ 2) as B.
    { replace ((sqrt G2 * sqrt G3) ^ 2) with ((sqrt G2 * sqrt G2) * (sqrt G3 * sqrt G3)) by ring. rewrite !sqrt_sq by assumption.
      pose proof gram_det as GD. assert (0 <= uu * Rsqr (u1 * (v2 * w3 - v3 * w2) - u2 * (v1 * w3 - v3 * w1) + u3 * (v1 * w2 - v2 * w1))) by (apply Rmult_le_pos; [lra|apply Rle_0_sqr]). lra. }
    pose proof (Rmult_lt_0_compat _ _ S2 S3) as S23. rewrite <- !Rsqr_pow2 in B. apply Rsqr_le_abs_0 in B. rewrite (Rabs_right (sqrt G2 * sqrt G3)) in B by lra.
    assert (- (sqrt G2 * sqrt G3) <= N <= sqrt G2 * sqrt G3) as B' by (clear - B; unfold Rabs in B; destruct (Rcase_abs N); lra). clear B. split.
    + apply (Rmult_le_reg_r (sqrt G2 * sqrt G3)); [exact S23|]. replace (N / (sqrt G2 * sqrt G3) * (sqrt G2 * sqrt G3)) with N by (field; split; lra). lra.
    + apply (Rmult_le_reg_r (sqrt G2 * sqrt G3)); [exact S23|]. replace (N / (sqrt G2 * sqrt G3) * (sqrt G2 * sqrt G3)) with N by (field; split; lra). lra.
  - intros [P1 [P2 [P3 [HP HN]]]]. assert (0 < vv) as PV by (apply (gram_pos_side uu vv uv); assumption). assert (0 < ww) as PW by (apply (gram_pos_side uu ww uw); assumption).
    rewrite (proj2 (norm_zero u1 u2 u3)), (proj2 (norm_zero v1 v2 v3)), (proj2 (norm_zero w1 w2 w3)) by assumption. cbn [orb].
    destruct (code_value P1 PV PW) as [-> [-> ->]]. cbv zeta.
    pose proof (sqrt_lt_R0 _ P1) as Su. pose proof (sqrt_lt_R0 _ PV) as Sv. pose proof (sqrt_lt_R0 _ PW) as Sw.
    pose proof (sqrt_lt_R0 _ P2) as S2. pose proof (sqrt_lt_R0 _ P3) as S3.
    assert (0 < sqrt G2 / (sqrt uu * sqrt vv) * (sqrt G3 / (sqrt uu * sqrt ww))) as DP.
    { apply Rmult_lt_0_compat; apply Rdiv_lt_0_compat; try assumption; apply Rmult_lt_0_compat; assumption. }
    rewrite (proj2 (Reqb_false _ _)) by lra. f_equal. rewrite HN.
    replace (cos phi * sqrt G2 * sqrt G3 / (uu * (sqrt vv * sqrt ww)) / (sqrt G2 / (sqrt uu * sqrt vv) * (sqrt G3 / (sqrt uu * sqrt ww)))) with (cos phi); [apply acos_cos, HP|].
    replace (uu * (sqrt vv * sqrt ww)) with ((sqrt uu * sqrt uu) * (sqrt vv * sqrt ww)) by (rewrite sqrt_sq by lra; reflexivity). field. repeat split; lra.
Qed.
Lemma spec_angle phi : (0 < inner [u1;u2;u3] [u1;u2;u3] /\ angle_between (perp [u1;u2;u3] [v1;v2;v3]) (perp [u1;u2;u3] [w1;w2;w3]) phi)
  <-> 0 < uu /\ 0 < G2 /\ 0 < G3 /\ 0 <= phi <= PI /\ N = cos phi * sqrt G2 * sqrt G3.
Proof.
  rewrite inner3. fold uu. assert (0 < uu -> inner (perp [u1;u2;u3] [v1;v2;v3]) (perp [u1;u2;u3] [v1;v2;v3]) = G2 / uu /\
     inner (perp [u1;u2;u3] [w1;w2;w3]) (perp [u1;u2;u3] [w1;w2;w3]) = G3 / uu /\ inner (perp [u1;u2;u3] [v1;v2;v3]) (perp [u1;u2;u3] [w1;w2;w3]) = N / uu) as K.
  { intros P. unfold perp. rewrite !inner3. fold uu uv uw. unfold vtimes. cbn [map vplus]. rewrite !inner3.
    assert (forall a b, dot3 (v1 + a * u1) (v2 + a * u2) (v3 + a * u3) (w1 + b * u1) (w2 + b * u2) (w3 + b * u3) = vw + b * uv + a * uw + a * b * uu) as D by (intros; unfold dot3, vw, uv, uw, uu, dot3; ring).
    assert (forall a b, dot3 (v1 + a * u1) (v2 + a * u2) (v3 + a * u3) (v1 + b * u1) (v2 + b * u2) (v3 + b * u3) = vv + b * uv + a * uv + a * b * uu) as DV by (intros; unfold dot3, vv, uv, uw, uu, dot3; ring).
    assert (forall a b, dot3 (w1 + a * u1) (w2 + a * u2) (w3 + a * u3) (w1 + b * u1) (w2 + b * u2) (w3 + b * u3) = ww + b * uw + a * uw + a * b * uu) as DW by (intros; unfold dot3, ww, uv, uw, uu, dot3; ring).
    rewrite D, DV, DW. unfold G2, G3, N. repeat split; field; lra. }
  assert (0 < uu -> (0 < G2 / uu <-> 0 < G2) /\ (0 < G3 / uu <-> 0 < G3)) as S.
  { intros P. assert (forall x, 0 < x / uu <-> 0 < x) as Q; [|split; apply Q]. intros x. split; intros H.
    - apply (Rmult_lt_reg_r (/ uu)); [apply Rinv_0_lt_compat, P|]. rewrite Rmult_0_l. exact H.
    - apply Rdiv_lt_0_compat; assumption. }
  assert (0 < uu -> 0 < G2 -> 0 < G3 -> (N / uu = cos phi * sqrt (G2 / uu) * sqrt (G3 / uu) <-> N = cos phi * sqrt G2 * sqrt G3)) as E.
  { intros P P2 P3. rewrite !sqrt_div_alt by exact P. pose proof (sqrt_lt_R0 _ P) as Su.
    replace (cos phi * (sqrt G2 / sqrt uu) * (sqrt G3 / sqrt uu)) with (cos phi * sqrt G2 * sqrt G3 / (sqrt uu * sqrt uu)) by (field; lra).
    rewrite sqrt_sq by lra. split; intros H; [|rewrite H; reflexivity]. apply (Rmult_eq_reg_r (/ uu)); [exact H|]. apply Rinv_neq_0_compat. lra. }
  unfold angle_between. split.
  - intros [P H]. destruct (K P) as [K1 [K2 K3]]. rewrite K1, K2, K3 in H. destruct (S P) as [S1 S2]. destruct H as [A [B [C D]]].
    apply S1 in A. apply S2 in B. repeat split; try assumption; try apply C. apply E; assumption.
  - intros [P [A [B [C D]]]]. destruct (K P) as [K1 [K2 K3]]. rewrite K1, K2, K3. destruct (S P) as [S1 S2].
    split; [exact P|]. split; [apply S1, A|]. split; [apply S2, B|]. split; [exact C|]. apply E; assumption.
Qed.
End One.

Lemma dihedral_angle_spec a b c d phi : length a = 3%nat -> length b = 3%nat -> length c = 3%nat -> length d = 3%nat ->
  (dihedral_angle a b c d = Some phi <-> dihedral a b c d phi).
Proof.
  intros La Lb Lc Ld.
  destruct a as [|a1 [|a2 [|a3 [|]]]]; try discriminate. destruct b as [|b1 [|b2 [|b3 [|]]]]; try discriminate.
  destruct c as [|c1 [|c2 [|c3 [|]]]]; try discriminate. destruct d as [|d1 [|d2 [|d3 [|]]]]; try discriminate.
  change (dihedral_angle [a1;a2;a3] [b1;b2;b3] [c1;c2;c3] [d1;d2;d3]) with
    (code_angle (b1-a1) (b2-a2) (b3-a3) (c1-a1) (c2-a2) (c3-a3) (d1-a1) (d2-a2) (d3-a3)).
  rewrite code_angle_spec. unfold dihedral.
  assert (forall b1 b2 b3, vec [a1;a2;a3] [b1;b2;b3] = [b1-a1;b2-a2;b3-a3]) as V.
  { intros. unfold vec, vtimes. cbn [map vplus]. repeat (f_equal; try ring). }
  rewrite !V. symmetry. apply spec_angle.
Qed.
(** the order of the ends of the edge and of the two opposite corners does not matter *)
Lemma dihedral_swap_faces a b c d phi : dihedral a b c d phi -> dihedral a b d c phi.
Proof.
  intros [P [A [B [C D]]]]. split; [exact P|]. split; [exact B|]. split; [exact A|]. split; [exact C|].
  assert (forall x y, inner x y = inner y x) as IC. { induction x as [|x1 x IH]; destruct y as [|y1 y]; cbn; try reflexivity. rewrite IH. ring. }
  rewrite IC, D. ring.
Qed.
Lemma perp_shift3 u1 u2 u3 x1 x2 x3 : dot3 u1 u2 u3 u1 u2 u3 <> 0 ->
  perp [u1;u2;u3] [x1-u1;x2-u2;x3-u3] = perp [u1;u2;u3] [x1;x2;x3].
Proof.
  intros H. unfold perp. rewrite !inner3. unfold vtimes. cbn [map vplus].
  assert (dot3 u1 u2 u3 (x1-u1) (x2-u2) (x3-u3) / dot3 u1 u2 u3 u1 u2 u3 = dot3 u1 u2 u3 x1 x2 x3 / dot3 u1 u2 u3 u1 u2 u3 - 1) as ->.
  { replace (dot3 u1 u2 u3 (x1-u1) (x2-u2) (x3-u3)) with (dot3 u1 u2 u3 x1 x2 x3 - dot3 u1 u2 u3 u1 u2 u3) by (unfold dot3; ring). field. exact H. }
  repeat (f_equal; try ring).
Qed.
Lemma perp_neg3 u1 u2 u3 x1 x2 x3 : perp [-u1;-u2;-u3] [x1;x2;x3] = perp [u1;u2;u3] [x1;x2;x3].
Proof.
  unfold perp. rewrite !inner3. unfold vtimes. cbn [map vplus].
  replace (dot3 (-u1) (-u2) (-u3) x1 x2 x3) with (- dot3 u1 u2 u3 x1 x2 x3) by (unfold dot3; ring).
  replace (dot3 (-u1) (-u2) (-u3) (-u1) (-u2) (-u3)) with (dot3 u1 u2 u3 u1 u2 u3) by (unfold dot3; ring).
  unfold Rdiv. repeat (f_equal; try ring).
Qed.
Lemma dihedral_swap_ends a b c d phi : length a = 3%nat -> length b = 3%nat -> length c = 3%nat -> length d = 3%nat ->
  dihedral a b c d phi -> dihedral b a c d phi.
Proof.
  intros La Lb Lc Ld.
  destruct a as [|a1 [|a2 [|a3 [|]]]]; try discriminate. destruct b as [|b1 [|b2 [|b3 [|]]]]; try discriminate.
  destruct c as [|c1 [|c2 [|c3 [|]]]]; try discriminate. destruct d as [|d1 [|d2 [|d3 [|]]]]; try discriminate.
  assert (forall a1 a2 a3 b1 b2 b3, vec [a1;a2;a3] [b1;b2;b3] = [b1-a1;b2-a2;b3-a3]) as V.
  { intros. unfold vec, vtimes. cbn [map vplus]. repeat (f_equal; try ring). }
  unfold dihedral. rewrite !V. intros [P A]. rewrite inner3 in P.
  assert (forall x1 x2 x3, perp [a1-b1;a2-b2;a3-b3] [x1-b1;x2-b2;x3-b3] = perp [b1-a1;b2-a2;b3-a3] [x1-a1;x2-a2;x3-a3]) as E.
  { intros. rewrite <- (perp_shift3 (b1-a1) (b2-a2) (b3-a3)) by lra. rewrite <- perp_neg3. f_equal; repeat (f_equal; try ring). }
  rewrite !E. split; [|exact A]. rewrite inner3. replace (dot3 (a1 - b1) (a2 - b2) (a3 - b3) (a1 - b1) (a2 - b2) (a3 - b3)) with
   (dot3 (b1 - a1) (b2 - a2) (b3 - a3) (b1 - a1) (b2 - a2) (b3 - a3)) by (unfold dot3; ring). exact P.
Qed.

(** ---- the list of slivers ---- *)
Lemma argwhere_in {A} (f : A -> bool) d l : forall i j, In j (argwhere f i l) <-> (i <= j < i + length l)%nat /\ f (nth (j - i) l d) = true.
Proof.
  induction l as [|x l IH]; intros i j; cbn [argwhere].
  - cbn. lia.
  - cbn [length]. assert (In j (argwhere f (S i) l) <-> (S i <= j < S i + length l)%nat /\ f (nth (j - i) (x :: l) d) = true) as IH'.
    { rewrite IH. split; intros [L H]; (split; [exact L|]); replace (j - i)%nat with (S (j - S i)) in * by lia; exact H. }
    destruct (f x) eqn:E; [cbn [In]|]; rewrite IH'.
    + split.
      * intros [->|[L H]]; [|split; [lia|exact H]]. split; [lia|]. rewrite Nat.sub_diag. exact E.
      * intros [L H]. destruct (Nat.eq_dec i j) as [->|N]; [left; reflexivity|right]. split; [lia|exact H].
    + split; intros [L H]; (split; [|exact H]); [lia|]. destruct (Nat.eq_dec i j) as [->|N]; [|lia]. rewrite Nat.sub_diag in H. cbn in H. congruence.
Qed.
Lemma six_nth {A B} (g : A -> list B) (t : list A) dA d : (forall r, length (g r) = 6%nat) -> forall e i, (i < 6)%nat -> (e < length t)%nat ->
  nth (6 * e + i) (flat_map g t) d = nth i (g (nth e t dA)) d.
Proof.
  intros H6. induction t as [|r t IH]; intros e i Hi He; [cbn in He; lia|]. cbn [flat_map]. destruct e as [|e].
  - rewrite app_nth1 by (rewrite H6; lia). f_equal; lia.
  - rewrite app_nth2 by (rewrite H6; lia). rewrite H6. cbn [nth]. cbn [length] in He. rewrite <- IH by lia. f_equal. lia.
Qed.
Lemma six_len {A B} (g : A -> list B) (t : list A) : (forall r, length (g r) = 6%nat) -> length (flat_map g t) = (6 * length t)%nat.
Proof. intros H6. induction t as [|r t IH]; [reflexivity|]. cbn [flat_map length]. rewrite app_length, H6, IH. lia. Qed.
Lemma slivers_in p t lo hi e : In e (slivers p t lo hi) <->
  (e < length t)%nat /\ existsb (out_of_bounds lo hi) (cell_angles (pts_of p (nth e t []))) = true.
Proof.
  unfold slivers. rewrite unique_nat_in, in_map_iff, existsb_exists.
  assert (forall r, length (cell_angles (pts_of p r)) = 6%nat) as H6 by reflexivity.
  unfold calc_dihedral_angles. split.
  - intros [j [<- H]]. apply (argwhere_in _ None) in H. destruct H as [L H]. rewrite (six_len _ t H6) in L. rewrite Nat.sub_0_r in H.
    assert (j = 6 * (j / 6) + j mod 6)%nat as EJ by (apply Nat.div_mod; lia). pose proof (Nat.mod_upper_bound j 6 ltac:(lia)) as M.
    assert (j / 6 < length t)%nat as Q by (apply Nat.div_lt_upper_bound; lia). split; [exact Q|].
    rewrite EJ in H. rewrite (six_nth _ t [] None H6) in H by assumption. 
    exists (nth (j mod 6) (cell_angles (pts_of p (nth (j / 6) t []))) None). split; [|exact H]. apply nth_In. rewrite H6. exact M.
  - intros [L [a [I H]]]. destruct (In_nth _ _ None I) as [i [Li E]]. rewrite H6 in Li. exists (6 * e + i)%nat. split.
    + rewrite Nat.mul_comm, Nat.div_add_l by lia. rewrite (Nat.div_small i 6) by exact Li. lia.
    + apply (argwhere_in _ None). rewrite (six_len _ t H6), Nat.sub_0_r. split; [lia|]. rewrite (six_nth _ t [] None H6) by assumption. rewrite E. exact H.
Qed.
Lemma perm_cases {A} (x : A) l1 l2 l : Permutation (x :: l) (l1 ++ x :: l2) -> Permutation l (l1 ++ l2).
Proof. apply Permutation_cons_app_inv. Qed.
Lemma perm2 {A} (x y a b : A) : Permutation [x; y] [a; b] -> (x = a /\ y = b) \/ (x = b /\ y = a).
Proof. intros P. apply Permutation_length_2_inv in P. destruct P as [E|E]; injection E as -> ->; tauto. Qed.
Lemma perm3 {A} (x y z a b c : A) : Permutation [x; y; z] [a; b; c] ->
  (x = a /\ Permutation [y; z] [b; c]) \/ (x = b /\ Permutation [y; z] [a; c]) \/ (x = c /\ Permutation [y; z] [a; b]).
Proof.
  intros P. assert (In x [a; b; c]) as I by (apply (Permutation_in _ P); left; reflexivity). destruct I as [<- | [<- | [<- | []]]].
  - left. split; [reflexivity|]. exact (perm_cases a [] [b; c] _ P).
  - right; left. split; [reflexivity|]. exact (perm_cases b [a] [c] _ P).
  - right; right. split; [reflexivity|]. exact (perm_cases c [a; b] [] _ P).
Qed.
Lemma perm4 {A} (x y z w a b c d : A) : Permutation [x; y; z; w] [a; b; c; d] ->
  (x = a /\ Permutation [y; z; w] [b; c; d]) \/ (x = b /\ Permutation [y; z; w] [a; c; d]) \/ (x = c /\ Permutation [y; z; w] [a; b; d]) \/ (x = d /\ Permutation [y; z; w] [a; b; c]).
Proof.
  intros P. assert (In x [a; b; c; d]) as I by (apply (Permutation_in _ P); left; reflexivity). destruct I as [<- | [<- | [<- | [<- | []]]]].
  - left. split; [reflexivity|]. exact (perm_cases a [] [b; c; d] _ P).
  - right; left. split; [reflexivity|]. exact (perm_cases b [a] [c; d] _ P).
  - right; right; left. split; [reflexivity|]. exact (perm_cases c [a; b] [d] _ P).
  - right; right; right. split; [reflexivity|]. exact (perm_cases d [a; b; c] [] _ P).
Qed.
Lemma out_of_bounds_some lo hi phi : out_of_bounds lo hi (Some phi) = true <-> phi < lo \/ hi < phi.
Proof. cbn. rewrite orb_true_iff, !Rltb_true. reflexivity. Qed.
Lemma bad_angle_spec lo hi a b c d : length a = 3%nat -> length b = 3%nat -> length c = 3%nat -> length d = 3%nat ->
  (existsb (out_of_bounds lo hi) (cell_angles [a; b; c; d]) = true <-> bad_angle lo hi [a; b; c; d]).
Proof.
  intros La Lb Lc Ld. rewrite existsb_exists.
  change (cell_angles [a;b;c;d]) with [dihedral_angle c d a b; dihedral_angle b d a c; dihedral_angle b c a d; dihedral_angle a d b c; dihedral_angle a c b d; dihedral_angle a b c d].
  split.
  - intros [x [I H]]. destruct x as [phi|]; [|discriminate]. apply out_of_bounds_some in H.
    assert (forall w x y z, Permutation [w;x;y;z] [a;b;c;d] -> dihedral_angle w x y z = Some phi -> bad_angle lo hi [a;b;c;d]) as K.
    { intros w x y z P E. exists w, x, y, z, phi. split; [exact P|]. split; [|exact H].
      assert (forall v, In v [w;x;y;z] -> length v = 3%nat) as L3.
      { intros v Iv. apply (Permutation_in _ P) in Iv. destruct Iv as [<- | [<- | [<- | [<- | []]]]]; assumption. }
      apply dihedral_angle_spec; try (apply L3; cbn; tauto). exact E. }
    assert (forall x1 x2 y1 y2 : list R, Permutation [x1;x2;y1;y2] [y1;y2;x1;x2]) as PP.
    { intros. change [x1;x2;y1;y2] with ([x1;x2] ++ [y1;y2]). change [y1;y2;x1;x2] with ([y1;y2] ++ [x1;x2]). apply Permutation_app_comm. }
    destruct I as [E|[E|[E|[E|[E|[E|[]]]]]]]; refine (K _ _ _ _ _ E).
    + apply PP.
    + etransitivity; [apply PP|]. apply perm_skip, perm_swap.
    + etransitivity; [apply (perm_skip b), perm_swap|]. etransitivity; [apply perm_swap|]. reflexivity.
    + apply perm_skip. apply (Permutation_cons_append [b;c] d).
    + apply perm_skip, perm_swap.
    + reflexivity.
  - intros [x [y [z [w [phi [P [D H]]]]]]].
    assert (forall v, In v [x;y;z;w] -> length v = 3%nat) as L3.
    { intros v Iv. apply (Permutation_in _ P) in Iv. destruct Iv as [<- | [<- | [<- | [<- | []]]]]; assumption. }
    exists (Some phi). split; [|apply out_of_bounds_some, H].
    assert (forall k l m n, length k = 3%nat -> length l = 3%nat -> length m = 3%nat -> length n = 3%nat -> dihedral k l m n phi ->
      dihedral_angle k l m n = Some phi /\ dihedral_angle l k m n = Some phi /\ dihedral_angle k l n m = Some phi /\ dihedral_angle l k n m = Some phi) as ALL.
    { intros k l m n Lk Ll Lm Ln Dk. rewrite !dihedral_angle_spec by assumption. pose proof (dihedral_swap_ends k l m n phi Lk Ll Lm Ln Dk) as Ds.
      split; [exact Dk|]. split; [exact Ds|]. split; apply dihedral_swap_faces; assumption. }
    destruct (ALL x y z w) as [A1 [A2 [A3 A4]]]; try (apply L3; cbn; tauto); [exact D|].
    apply perm4 in P. cbn [In].
    destruct P as [[-> P]|[[-> P]|[[-> P]|[-> P]]]]; apply perm3 in P; destruct P as [[-> P]|[[-> P]|[-> P]]]; apply perm2 in P; destruct P as [[-> ->]|[-> ->]]; tauto.
Qed.
Lemma slivers_spec p t lo hi : (forall r, In r t -> length r = 4%nat /\ forall v, In v r -> length (nth v p []) = 3%nat) ->
  increasing (slivers p t lo hi) /\
  forall e, In e (slivers p t lo hi) <-> (e < length t)%nat /\ bad_angle lo hi (pts_of p (nth e t [])).
Proof.
  intros HT. split; [apply increasing_ss, unique_nat_sorted|]. intros e. rewrite slivers_in.
  assert ((e < length t)%nat -> (existsb (out_of_bounds lo hi) (cell_angles (pts_of p (nth e t []))) = true <-> bad_angle lo hi (pts_of p (nth e t [])))) as K.
  { intros L. destruct (HT _ (nth_In t [] L)) as [L4 L3]. destruct (nth e t []) as [|i [|j [|k [|l [|? ?]]]]]; try discriminate.
    unfold pts_of. cbn [map]. apply bad_angle_spec; apply L3; cbn; tauto. }
  split; intros [L H]; (split; [exact L|]); apply (K L); exact H.
Qed.
(** four corners on a line: no angle is defined *)
Lemma perp_parallel u s : inner u u <> 0 -> perp u (vtimes s u) = vtimes 0 u.
Proof.
  intros H. unfold perp. assert (inner u (vtimes s u) = s * inner u u) as ->.
  { clear H. induction u as [|x u IH]; cbn; [ring|]. unfold vtimes in IH. rewrite IH. ring. }
  replace (- (s * inner u u / inner u u)) with (- s) by (field; exact H). clear H. unfold vtimes. induction u as [|x u IH]; [reflexivity|].
  cbn [map vplus]. rewrite IH. f_equal. ring.
Qed.
Lemma line_no_angle a b c d phi : on_a_line [a; b; c; d] -> ~ dihedral a b c d phi.
Proof.
  intros [o [u [L F]]] [P [A _]]. inversion F as [|? ? [xa ->] F1]; subst. inversion F1 as [|? ? [xb ->] F2]; subst. inversion F2 as [|? ? [xc ->] F3]; subst. clear F F1 F2 F3.
  assert (forall x y, vec (vplus o (vtimes x u)) (vplus o (vtimes y u)) = vtimes (y - x) u) as V.
  { intros x y. clear - L. unfold vec, vtimes. revert o L. induction u as [|u1 u IH]; intros [|o1 o] L; cbn in L; try discriminate; [reflexivity|]. cbn [map vplus].
    rewrite IH by lia. f_equal. ring. }
  rewrite !V in *. clear L V. assert (forall s r, inner (vtimes s u) (vtimes r u) = s * r * inner u u) as I.
  { clear. intros s r. unfold vtimes. induction u as [|x u IH]; cbn; [ring|]. rewrite IH. ring. }
  rewrite I in P. assert (xb - xa <> 0) as N by (intros E; rewrite E in P; lra).
  assert (vtimes (xc - xa) u = vtimes ((xc - xa) / (xb - xa)) (vtimes (xb - xa) u)) as E.
  { unfold vtimes. rewrite map_map. apply map_ext. intros z. field. exact N. }
  rewrite E, perp_parallel in A by (rewrite I; lra). 
  assert (forall v, inner (vtimes 0 v) (vtimes 0 v) = 0) as Z by (clear; intros v; unfold vtimes; induction v as [|x v IH]; cbn; [reflexivity|rewrite IH; ring]).
  rewrite Z in A. lra.
Qed.
Lemma line_not_bad lo hi s : on_a_line s -> ~ bad_angle lo hi s.
Proof.
  intros [o [u [L F]]] [a [b [c [d [phi [P [D _]]]]]]]. apply (line_no_angle a b c d phi); [|exact D]. exists o, u. split; [exact L|].
  apply (Permutation_Forall (Permutation_sym P) F).
Qed.

(** ---- flat tetrahedra ---- *)
Lemma vec3 a1 a2 a3 b1 b2 b3 : vec [a1;a2;a3] [b1;b2;b3] = [b1-a1;b2-a2;b3-a3].
Proof. unfold vec, vtimes. cbn [map vplus]. repeat (f_equal; try ring). Qed.
(** g*(c-a) + d*(d-a) + b*(b-a) = 0 and g, d of opposite sign: angle 0 *)
Lemma opposite_signs_zero_angle a b c d sa sb sc sd : length a = 3%nat -> length b = 3%nat -> length c = 3%nat -> length d = 3%nat ->
  0 < inner (vec a b) (vec a b) -> 0 < inner (perp (vec a b) (vec a c)) (perp (vec a b) (vec a c)) ->
  0 < inner (perp (vec a b) (vec a d)) (perp (vec a b) (vec a d)) ->
  sa + sb + sc + sd = 0 -> combination 3 [sa;sb;sc;sd] [a;b;c;d] = [0;0;0] -> 0 < - (sc * sd) -> dihedral a b c d 0.
Proof.
  intros La Lb Lc Ld PU PC PD HS HC HO.
  destruct a as [|a1 [|a2 [|a3 [|]]]]; try discriminate. destruct b as [|b1 [|b2 [|b3 [|]]]]; try discriminate.
  destruct c as [|c1 [|c2 [|c3 [|]]]]; try discriminate. destruct d as [|d1 [|d2 [|d3 [|]]]]; try discriminate.
  cbn [combination] in HC. unfold vtimes in HC. cbn [map repeat vplus] in HC. injection HC as H1 H2 H3.
  unfold dihedral, angle_between. split; [exact PU|]. split; [exact PC|]. split; [exact PD|]. split; [pose proof PI_RGT_0; lra|]. rewrite cos_0.
  rewrite !vec3 in *. set (x1 := c1 - a1) in *. set (x2 := c2 - a2) in *. set (x3 := c3 - a3) in *.
  set (u1 := b1 - a1) in *. set (u2 := b2 - a2) in *. set (u3 := b3 - a3) in *. set (y1 := d1 - a1) in *. set (y2 := d2 - a2) in *. set (y3 := d3 - a3) in *.
  assert (sb * u1 + sc * x1 + sd * y1 = 0) as E1 by (unfold u1, x1, y1; replace sa with (- sb - sc - sd) in H1 by lra; lra).
  assert (sb * u2 + sc * x2 + sd * y2 = 0) as E2 by (unfold u2, x2, y2; replace sa with (- sb - sc - sd) in H2 by lra; lra).
  assert (sb * u3 + sc * x3 + sd * y3 = 0) as E3 by (unfold u3, x3, y3; replace sa with (- sb - sc - sd) in H3 by lra; lra).
  clearbody x1 x2 x3 u1 u2 u3 y1 y2 y3. clear H1 H2 H3.
  assert (sd <> 0) as ND by (intros ->; lra). set (k := - (sc / sd)). set (l := - (sb / sd)).
  assert (0 < k) as KP.
  { unfold k. replace (- (sc / sd)) with ((- (sc * sd)) * (/ sd * / sd)) by (field; exact ND). apply Rmult_lt_0_compat; [exact HO|].
    pose proof (Rlt_0_sqr (/ sd) (Rinv_neq_0_compat _ ND)) as S. unfold Rsqr in S. exact S. }
  assert (forall x u y, sb * u + sc * x + sd * y = 0 -> y = k * x + l * u) as S.
  { intros x u y E. unfold k, l. apply (Rmult_eq_reg_l sd); [|exact ND]. replace (sd * (- (sc / sd) * x + - (sb / sd) * u)) with (- sc * x - sb * u) by (field; exact ND). lra. }
  apply S in E1. apply S in E2. apply S in E3. subst y1 y2 y3. rewrite inner3 in PU.
  assert (perp [u1;u2;u3] [k * x1 + l * u1; k * x2 + l * u2; k * x3 + l * u3] = vtimes k (perp [u1;u2;u3] [x1;x2;x3])) as EP.
  { unfold perp. rewrite !inner3. unfold vtimes. cbn [map vplus].
    replace (dot3 u1 u2 u3 (k * x1 + l * u1) (k * x2 + l * u2) (k * x3 + l * u3) / dot3 u1 u2 u3 u1 u2 u3) with (k * (dot3 u1 u2 u3 x1 x2 x3 / dot3 u1 u2 u3 u1 u2 u3) + l).
    - repeat (f_equal; try ring).
    - replace (dot3 u1 u2 u3 (k * x1 + l * u1) (k * x2 + l * u2) (k * x3 + l * u3)) with (k * dot3 u1 u2 u3 x1 x2 x3 + l * dot3 u1 u2 u3 u1 u2 u3) by (unfold dot3; ring). field. lra. }
  rewrite EP. set (w := perp [u1;u2;u3] [x1;x2;x3]) in *.
  assert (inner w (vtimes k w) = k * inner w w /\ inner (vtimes k w) (vtimes k w) = k * k * inner w w) as [-> ->].
  { clear. unfold vtimes. induction w as [|x w [IH1 IH2]]; cbn; [split; ring|]. rewrite IH1, IH2. split; ring. }
  rewrite (sqrt_mult_alt (k * k)) by (apply Rmult_le_pos; lra). rewrite sqrt_square by lra.
  replace (1 * sqrt (inner w w) * (k * sqrt (inner w w))) with (k * (sqrt (inner w w) * sqrt (inner w w))) by ring. rewrite sqrt_sq by lra. reflexivity.
Qed.
Lemma flat_nonzero a b c d sa sb sc sd : length a = 3%nat -> length b = 3%nat -> length c = 3%nat -> length d = 3%nat ->
  0 < inner (vec a b) (vec a b) -> 0 < inner (perp (vec a b) (vec a c)) (perp (vec a b) (vec a c)) ->
  sa + sb + sc + sd = 0 -> combination 3 [sa;sb;sc;sd] [a;b;c;d] = [0;0;0] -> sd = 0 -> sa = 0 /\ sb = 0 /\ sc = 0.
Proof.
  intros La Lb Lc Ld PU PC HS HC ->.
  destruct a as [|a1 [|a2 [|a3 [|]]]]; try discriminate. destruct b as [|b1 [|b2 [|b3 [|]]]]; try discriminate.
  destruct c as [|c1 [|c2 [|c3 [|]]]]; try discriminate. destruct d as [|d1 [|d2 [|d3 [|]]]]; try discriminate.
  cbn [combination] in HC. unfold vtimes in HC. cbn [map repeat vplus] in HC. injection HC as H1 H2 H3.
  rewrite !vec3 in *. set (x1 := c1 - a1) in *. set (x2 := c2 - a2) in *. set (x3 := c3 - a3) in *.
  set (u1 := b1 - a1) in *. set (u2 := b2 - a2) in *. set (u3 := b3 - a3) in *.
  assert (sb * u1 + sc * x1 = 0) as E1 by (unfold u1, x1; replace sa with (- sb - sc) in H1 by lra; lra).
  assert (sb * u2 + sc * x2 = 0) as E2 by (unfold u2, x2; replace sa with (- sb - sc) in H2 by lra; lra).
  assert (sb * u3 + sc * x3 = 0) as E3 by (unfold u3, x3; replace sa with (- sb - sc) in H3 by lra; lra).
  clearbody x1 x2 x3 u1 u2 u3. clear H1 H2 H3. rewrite inner3 in PU.
  assert (sc = 0) as ZC.
  { destruct (Req_dec sc 0) as [E|N]; [exact E|exfalso]. set (k := - (sb / sc)).
    assert (forall x u, sb * u + sc * x = 0 -> x = k * u) as S.
    { intros x u E. unfold k. apply (Rmult_eq_reg_l sc); [|exact N]. replace (sc * (- (sb / sc) * u)) with (- sb * u) by (field; exact N). lra. }
    apply S in E1. apply S in E2. apply S in E3. subst x1 x2 x3.
    change [k * u1; k * u2; k * u3] with (vtimes k [u1;u2;u3]) in PC. rewrite perp_parallel in PC by (rewrite inner3; lra).
    unfold vtimes in PC. cbn in PC. lra. }
  subst sc. assert (sb = 0) as ZB.
  { apply Rmult_eq_reg_r with (dot3 u1 u2 u3 u1 u2 u3); [|lra]. unfold dot3. 
    replace (sb * (u1 * u1 + u2 * u2 + u3 * u3)) with (u1 * (sb * u1) + u2 * (sb * u2) + u3 * (sb * u3)) by ring.
    replace (sb * u1) with 0 by lra. replace (sb * u2) with 0 by lra. replace (sb * u3) with 0 by lra. ring. }
  lra.
Qed.
Lemma comb_perm_len3 (s : list (R * list R)) (s' : list (R * list R)) : Permutation s s' -> Forall (fun x => length (snd x) = 3%nat) s ->
  combination 3 (map fst s) (map snd s) = combination 3 (map fst s') (map snd s') /\ length (combination 3 (map fst s) (map snd s)) = 3%nat.
Proof.
  assert (forall s, Forall (fun x : R * list R => length (snd x) = 3%nat) s -> length (combination 3 (map fst s) (map snd s)) = 3%nat) as L3.
  { induction s0 as [|[x q] s0 IH]; intros F; [reflexivity|]. inversion F as [|? ? Lq F']; subst. cbn [map fst snd combination] in *. specialize (IH F').
    destruct q as [|q1 [|q2 [|q3 [|]]]]; try discriminate. destruct (combination 3 (map fst s0) (map snd s0)) as [|r1 [|r2 [|r3 [|]]]]; try discriminate. reflexivity. }
  intros P F. split; [|apply L3, F]. induction P as [| [x q] l l' P IH| [x q] [y r] l|l l' l'' P1 IH1 P2 IH2].
  - reflexivity.
  - inversion F; subst. cbn [map fst snd combination]. rewrite IH by assumption. reflexivity.
  - inversion F as [|? ? Lq F1]; subst. inversion F1 as [|? ? Lr F2]; subst. cbn [map fst snd combination] in *. pose proof (L3 l F2) as Ll.
    destruct q as [|q1 [|q2 [|q3 [|]]]]; try discriminate. destruct r as [|r1 [|r2 [|r3 [|]]]]; try discriminate.
    destruct (combination 3 (map fst l) (map snd l)) as [|k1 [|k2 [|k3 [|]]]]; try discriminate. unfold vtimes. cbn [map vplus]. repeat (f_equal; try ring).
  - rewrite IH1 by exact F. apply IH2, (Permutation_Forall P1 F).
Qed.
Lemma flat_is_bad a b c d sa sb sc sd lo hi : length a = 3%nat -> length b = 3%nat -> length c = 3%nat -> length d = 3%nat ->
  proper_faces [a;b;c;d] -> sa + sb + sc + sd = 0 -> combination 3 [sa;sb;sc;sd] [a;b;c;d] = [0;0;0] ->
  ~ (sa = 0 /\ sb = 0 /\ sc = 0 /\ sd = 0) -> 0 < lo -> bad_angle lo hi [a;b;c;d].
Proof.
  intros La Lb Lc Ld PF HS HC NZ PL.
  (* any order of the pairs (coefficient, corner) *)
  assert (forall s, Permutation s [(sa,a);(sb,b);(sc,c);(sd,d)] -> forall xa xb xc xd ya yb yc yd, s = [(xa,ya);(xb,yb);(xc,yc);(xd,yd)] ->
    xa + xb + xc + xd = 0 /\ combination 3 [xa;xb;xc;xd] [ya;yb;yc;yd] = [0;0;0] /\ Permutation [ya;yb;yc;yd] [a;b;c;d] /\ length ya = 3%nat /\ length yb = 3%nat /\ length yc = 3%nat /\ length yd = 3%nat) as K.
  { intros s P xa xb xc xd ya yb yc yd ->. assert (Forall (fun x => length (snd x) = 3%nat) [(sa,a);(sb,b);(sc,c);(sd,d)]) as F by (repeat (apply Forall_cons; [assumption|]); apply Forall_nil).
    pose proof (Permutation_Forall (Permutation_sym P) F) as F'. destruct (comb_perm_len3 _ _ P F') as [E _]. cbn [map fst snd] in E. split; [|split; [congruence|split]].
    - pose proof (Permutation_map fst P) as PM. cbn [map fst] in PM. assert (forall l l', Permutation l l' -> fold_right Rplus 0 l = fold_right Rplus 0 l') as PS.
      { clear. induction 1; cbn; lra. }
      apply PS in PM. cbn in PM. lra.
    - apply (Permutation_map snd P).
    - inversion F' as [|? ? L1 F1]; subst. inversion F1 as [|? ? L2 F2]; subst. inversion F2 as [|? ? L3 F3]; subst. inversion F3 as [|? ? L4 F4]; subst. cbn in *. tauto. }
  set (S := [(sa,a);(sb,b);(sc,c);(sd,d)]) in *.
  assert (forall xa xb xc xd ya yb yc yd, Permutation [(xa,ya);(xb,yb);(xc,yc);(xd,yd)] S -> xd <> 0) as ND.
  { intros xa xb xc xd ya yb yc yd P E. destruct (K _ P _ _ _ _ _ _ _ _ eq_refl) as [H1 [H2 [H3 [L1 [L2 [L3 L4]]]]]]. destruct (PF ya yb yc yd H3) as [P1 P2].
    destruct (flat_nonzero ya yb yc yd xa xb xc xd) as [Z1 [Z2 Z3]]; try assumption. 
    assert (forall x, In x [(xa,ya);(xb,yb);(xc,yc);(xd,yd)] -> fst x = 0) as Z. { intros x Hx. cbn in Hx. destruct Hx as [<- | [<- | [<- | [<- | []]]]]; assumption. }
    apply NZ. repeat split; [apply (Z (sa,a))|apply (Z (sb,b))|apply (Z (sc,c))|apply (Z (sd,d))]; apply (Permutation_in _ (Permutation_sym P)); cbn; tauto. }
  assert (forall xa xb xc xd ya yb yc yd, Permutation [(xa,ya);(xb,yb);(xc,yc);(xd,yd)] S -> 0 < - (xc * xd) -> bad_angle lo hi [a;b;c;d]) as B.
  { intros xa xb xc xd ya yb yc yd P O. destruct (K _ P _ _ _ _ _ _ _ _ eq_refl) as [H1 [H2 [H3 [L1 [L2 [L3 L4]]]]]]. destruct (PF ya yb yc yd H3) as [P1 P2].
    destruct (PF ya yb yd yc) as [_ P3]. { etransitivity; [|exact H3]. apply perm_skip, perm_skip, perm_swap. }
    exists ya, yb, yc, yd, 0. split; [exact H3|]. split; [|left; exact PL]. apply (opposite_signs_zero_angle ya yb yc yd xa xb xc xd); assumption. }
  assert (Permutation [(sb,b);(sc,c);(sa,a);(sd,d)] S) as Q1. { unfold S. etransitivity; [apply perm_skip, perm_swap|apply perm_swap]. }
  assert (Permutation [(sb,b);(sd,d);(sa,a);(sc,c)] S) as Q2. { etransitivity; [|exact Q1]. etransitivity; [apply perm_skip, perm_skip, perm_swap|]. etransitivity; [apply perm_skip, perm_swap|]. apply perm_skip, perm_skip, perm_swap. }
  assert (Permutation [(sc,c);(sd,d);(sa,a);(sb,b)] S) as Q3. { unfold S. change [(sc,c);(sd,d);(sa,a);(sb,b)] with ([(sc,c);(sd,d)] ++ [(sa,a);(sb,b)]). apply Permutation_app_comm. }
  pose proof (ND _ _ _ _ _ _ _ _ Q1) as Nd. pose proof (ND _ _ _ _ _ _ _ _ Q2) as Nc. pose proof (ND _ _ _ _ _ _ _ _ Q3) as Nb.
  assert (sa <> 0) as Na. { apply (ND sb sc sd sa b c d a). apply Permutation_sym. apply (Permutation_cons_append [(sb,b);(sc,c);(sd,d)] (sa,a)). }
  assert (forall x y, x <> 0 -> y <> 0 -> 0 < - (x * y) \/ (0 < x /\ 0 < y) \/ (x < 0 /\ y < 0)) as TRI.
  { intros x y Hx Hy. destruct (Rtotal_order x 0) as [X|[X|X]]; [|congruence|]; destruct (Rtotal_order y 0) as [Y|[Y|Y]]; try congruence; try tauto.
    - left. replace (- (x * y)) with ((- x) * y) by ring. apply Rmult_lt_0_compat; lra.
    - left. replace (- (x * y)) with (x * (- y)) by ring. apply Rmult_lt_0_compat; lra. }
  destruct (TRI sa sb Na Nb) as [T|T1]; [exact (B _ _ _ _ _ _ _ _ Q3 T)|].
  destruct (TRI sa sc Na Nc) as [T|T2]; [exact (B _ _ _ _ _ _ _ _ Q2 T)|].
  destruct (TRI sa sd Na Nd) as [T|T3]; [exact (B _ _ _ _ _ _ _ _ Q1 T)|]. lra.
Qed.
