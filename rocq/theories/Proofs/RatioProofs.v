(** Radius-edge ratios of tetrahedra: lower bound. *)
From Coq Require Import List ZArith Reals Bool Arith Lia Lra.
From Verif Require Import Model.Base Model.SDF Model.Simplex Model.Mesh Model.Formulas Spec.Geom Spec.Linear Spec.MeshTopo
  Proofs.ListAux Proofs.Euclid Proofs.SimplexProofs Proofs.FormulaProofs Proofs.CircumProofs Proofs.PointInProofs Proofs.OverlapProofs.
Import ListNotations.
Local Open Scope R_scope.

Lemma three_coords (q : list R) : length q = 3%nat -> exists x y z, q = [x; y; z].
Proof. destruct q as [|x [|y [|z [|w q]]]]; cbn; try lia. eauto. Qed.
Lemma sum6 x0 y0 z0 x1 y1 z1 x2 y2 z2 x3 y3 z3 a b c r2 :
  sqnorm_diff [x0;y0;z0] [a;b;c] = r2 -> sqnorm_diff [x1;y1;z1] [a;b;c] = r2 -> sqnorm_diff [x2;y2;z2] [a;b;c] = r2 -> sqnorm_diff [x3;y3;z3] [a;b;c] = r2 ->
  sqdist [x0;y0;z0] [x1;y1;z1] + sqdist [x0;y0;z0] [x2;y2;z2] + sqdist [x0;y0;z0] [x3;y3;z3] + sqdist [x1;y1;z1] [x2;y2;z2] + sqdist [x1;y1;z1] [x3;y3;z3] + sqdist [x2;y2;z2] [x3;y3;z3] <= 16 * r2.
Proof.
  cbn. intros H0 H1 H2 H3.
  pose proof (Rle_0_sqr (x0 + x1 + x2 + x3 - 4 * a)). pose proof (Rle_0_sqr (y0 + y1 + y2 + y3 - 4 * b)). pose proof (Rle_0_sqr (z0 + z1 + z2 + z3 - 4 * c)).
  unfold Rsqr in *. lra.
Qed.
Lemma sq_edist p q : edist p q ^ 2 = sqdist p q.
Proof.
  unfold edist. rewrite <- Rsqr_pow2. apply Rsqr_sqrt. revert q. induction p as [|x p IH]; intros [|y q]; cbn [sqdist]; try lra.
  pose proof (IH q). pose proof (Rle_0_sqr (x - y)). unfold Rsqr in *. cbn [pow]. lra.
Qed.
Lemma ratio_bound p r c r2 : length r = 4%nat -> Forall (fun q => length q = 3%nat) (pts_of p r) -> circumscribed (pts_of p r) c r2 -> simp_vol (pts_of p r) <> 0 ->
  0 < min_edge p 3 r /\ min_edge p 3 r ^ 2 <= 8 / 3 * r2.
Proof.
  intros L F C V. destruct (min_edge_spec p 3 r (or_intror eq_refl) L F) as [(a & b & E & M) B].
  destruct r as [|i0 [|i1 [|i2 [|i3 [|? r]]]]]; cbn [length] in L; try lia.
  assert (B' : forall i j, (i < 4)%nat -> (j < 4)%nat -> i <> j -> min_edge p 3 [i0;i1;i2;i3] <= edist (nth (nth i [i0;i1;i2;i3] O) p []) (nth (nth j [i0;i1;i2;i3] O) p [])).
  { intros i j I J N. apply B. exists i, j. repeat split; cbn [length]; lia || reflexivity. }
  unfold pts_of in F, C, V. cbn [map] in F, C, V. inversion F as [|? ? F0 G0]; subst. inversion G0 as [|? ? F1 G1]; subst. inversion G1 as [|? ? F2 G2]; subst. inversion G2 as [|? ? F3 G3]; subst.
  destruct (three_coords _ F0) as (x0 & y0 & z0 & Q0). destruct (three_coords _ F1) as (x1 & y1 & z1 & Q1). destruct (three_coords _ F2) as (x2 & y2 & z2 & Q2). destruct (three_coords _ F3) as (x3 & y3 & z3 & Q3).
  assert (P : 0 < min_edge p 3 [i0;i1;i2;i3]).
  { rewrite M. unfold edist. apply sqrt_lt_R0. destruct E as (i & j & I & J & N & <- & <-). cbn [length] in I, J.
    assert (Z : forall x y z x' y' z', sqdist [x;y;z] [x';y';z'] <= 0 -> x = x' /\ y = y' /\ z = z').
    { intros x y z x' y' z' H. cbn in H. assert (forall d, 0 <= d * (d * 1)) as Sq by (intro d; pose proof (Rle_0_sqr d); unfold Rsqr in *; lra).
      assert (forall d, d * (d * 1) <= 0 -> d = 0) as Sz by (intros d Hd; apply Rsqr_0_uniq; unfold Rsqr; pose proof (Sq d); lra).
      pose proof (Sq (x - x')). pose proof (Sq (y - y')). pose proof (Sq (z - z')).
      repeat split; apply Rminus_diag_uniq, Sz; lra. }
    apply Rnot_le_lt. intro H. apply V. rewrite Q0, Q1, Q2, Q3.
    destruct i as [|[|[|[|i]]]]; try lia; destruct j as [|[|[|[|j]]]]; try lia; cbn [nth] in H; rewrite ?Q0, ?Q1, ?Q2, ?Q3 in H; apply Z in H; destruct H as (-> & -> & ->); cbn; lra. }
  split; [exact P|].
  assert (S : forall i j, (i < 4)%nat -> (j < 4)%nat -> i <> j -> min_edge p 3 [i0;i1;i2;i3] ^ 2 <= sqdist (nth (nth i [i0;i1;i2;i3] O) p []) (nth (nth j [i0;i1;i2;i3] O) p [])).
  { intros i j I J N. rewrite <- sq_edist. apply pow_incr. split; [lra | apply B'; assumption]. }
  pose proof (S 0 1 ltac:(lia) ltac:(lia) ltac:(lia))%nat as S01. pose proof (S 0 2 ltac:(lia) ltac:(lia) ltac:(lia))%nat as S02. pose proof (S 0 3 ltac:(lia) ltac:(lia) ltac:(lia))%nat as S03.
  pose proof (S 1 2 ltac:(lia) ltac:(lia) ltac:(lia))%nat as S12. pose proof (S 1 3 ltac:(lia) ltac:(lia) ltac:(lia))%nat as S13. pose proof (S 2 3 ltac:(lia) ltac:(lia) ltac:(lia))%nat as S23.
  cbn [nth] in S01, S02, S03, S12, S13, S23. rewrite Q0, Q1, Q2, Q3 in *.
  inversion C as [|? ? C0 D0]; subst. inversion D0 as [|? ? C1 D1]; subst. inversion D1 as [|? ? C2 D2]; subst. inversion D2 as [|? ? C3 D3]; subst.
  destruct (three_coords c ltac:(rewrite <- (proj1 C0); reflexivity)) as (a1 & b1 & c1 & ->).
  pose proof (sum6 _ _ _ _ _ _ _ _ _ _ _ _ _ _ _ _ (proj2 C0) (proj2 C1) (proj2 C2) (proj2 C3)). lra.
Qed.
