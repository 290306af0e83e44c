(** calc_circumsphere_grad is the gradient of the squared circumradius. *)
From Coq Require Import List ZArith Reals Lra Lia.
From Coquelicot Require Import Coquelicot.
From Verif Require Import Model.Base Model.SDF Model.Simplex Model.Formulas Spec.Linear Proofs.FormulaProofs.
Import ListNotations.
Local Open Scope R_scope.

(** squared radius from the three edge vectors leaving the last corner *)
Definition va x1 y1 z1 x2 y2 z2 x3 y3 z3 : R := x1 * (y2 * z3 - y3 * z2) + y1 * (z2 * x3 - x2 * z3) + z1 * (x2 * y3 - x3 * y2).
Definition sq x y z : R := x * x + y * y + z * z.
Definition vDx x1 y1 z1 x2 y2 z2 x3 y3 z3 : R :=
  - sq x1 y1 z1 * (y2 * z3 - y3 * z2) + y1 * (sq x2 y2 z2 * z3 - sq x3 y3 z3 * z2) - z1 * (sq x2 y2 z2 * y3 - sq x3 y3 z3 * y2).
Definition vDy x1 y1 z1 x2 y2 z2 x3 y3 z3 : R :=
  - sq x1 y1 z1 * (z2 * x3 - x2 * z3) - x1 * (sq x2 y2 z2 * z3 - sq x3 y3 z3 * z2) + z1 * (sq x2 y2 z2 * x3 - sq x3 y3 z3 * x2).
Definition vDz x1 y1 z1 x2 y2 z2 x3 y3 z3 : R :=
  - sq x1 y1 z1 * (x2 * y3 - x3 * y2) + x1 * (sq x2 y2 z2 * y3 - sq x3 y3 z3 * y2) - y1 * (sq x2 y2 z2 * x3 - sq x3 y3 z3 * x2).
Definition r2 x1 y1 z1 x2 y2 z2 x3 y3 z3 : R :=
  (vDx x1 y1 z1 x2 y2 z2 x3 y3 z3 ^ 2 + vDy x1 y1 z1 x2 y2 z2 x3 y3 z3 ^ 2 + vDz x1 y1 z1 x2 y2 z2 x3 y3 z3 ^ 2) /
  (4 * va x1 y1 z1 x2 y2 z2 x3 y3 z3 ^ 2).

Lemma circ_core x1 y1 z1 x2 y2 z2 x3 y3 z3 cx cy cz : va x1 y1 z1 x2 y2 z2 x3 y3 z3 <> 0 ->
  sq x1 y1 z1 = 2 * (x1 * cx + y1 * cy + z1 * cz) -> sq x2 y2 z2 = 2 * (x2 * cx + y2 * cy + z2 * cz) -> sq x3 y3 z3 = 2 * (x3 * cx + y3 * cy + z3 * cz) ->
  cx ^ 2 + cy ^ 2 + cz ^ 2 = r2 x1 y1 z1 x2 y2 z2 x3 y3 z3.
Proof.
  intros N E1 E2 E3. unfold r2.
  assert (vDx x1 y1 z1 x2 y2 z2 x3 y3 z3 = - 2 * va x1 y1 z1 x2 y2 z2 x3 y3 z3 * cx) as -> by (unfold vDx, va; rewrite E1, E2, E3; ring).
  assert (vDy x1 y1 z1 x2 y2 z2 x3 y3 z3 = - 2 * va x1 y1 z1 x2 y2 z2 x3 y3 z3 * cy) as -> by (unfold vDy, va; rewrite E1, E2, E3; ring).
  assert (vDz x1 y1 z1 x2 y2 z2 x3 y3 z3 = - 2 * va x1 y1 z1 x2 y2 z2 x3 y3 z3 * cz) as -> by (unfold vDz, va; rewrite E1, E2, E3; ring).
  field. exact N.
Qed.
Lemma circ_exists x1 y1 z1 x2 y2 z2 x3 y3 z3 : va x1 y1 z1 x2 y2 z2 x3 y3 z3 <> 0 -> exists cx cy cz,
  sq x1 y1 z1 = 2 * (x1 * cx + y1 * cy + z1 * cz) /\ sq x2 y2 z2 = 2 * (x2 * cx + y2 * cy + z2 * cz) /\ sq x3 y3 z3 = 2 * (x3 * cx + y3 * cy + z3 * cz).
Proof.
  intros N. set (a := va x1 y1 z1 x2 y2 z2 x3 y3 z3) in *.
  exists (- vDx x1 y1 z1 x2 y2 z2 x3 y3 z3 / (2 * a)), (- vDy x1 y1 z1 x2 y2 z2 x3 y3 z3 / (2 * a)), (- vDz x1 y1 z1 x2 y2 z2 x3 y3 z3 / (2 * a)).
  assert (forall x y z, sq x y z * a = - (x * vDx x1 y1 z1 x2 y2 z2 x3 y3 z3 + y * vDy x1 y1 z1 x2 y2 z2 x3 y3 z3 + z * vDz x1 y1 z1 x2 y2 z2 x3 y3 z3) ->
    sq x y z = 2 * (x * (- vDx x1 y1 z1 x2 y2 z2 x3 y3 z3 / (2 * a)) + y * (- vDy x1 y1 z1 x2 y2 z2 x3 y3 z3 / (2 * a)) + z * (- vDz x1 y1 z1 x2 y2 z2 x3 y3 z3 / (2 * a)))) as K.
  { intros x y z E. apply Rmult_eq_reg_r with a; [|exact N]. rewrite E. field. exact N. }
  repeat split; apply K; unfold a, va, vDx, vDy, vDz, sq; ring.
Qed.

Section Tet.
Variables p0x p0y p0z p1x p1y p1z p2x p2y p2z p3x p3y p3z : R.
Let p0 := [p0x; p0y; p0z]. Let p1 := [p1x; p1y; p1z]. Let p2 := [p2x; p2y; p2z]. Let p3 := [p3x; p3y; p3z].
Lemma vol_va : simp_vol [p0; p1; p2; p3] = - va (p0x - p3x) (p0y - p3y) (p0z - p3z) (p1x - p3x) (p1y - p3y) (p1z - p3z) (p2x - p3x) (p2y - p3y) (p2z - p3z) / 6.
Proof. unfold p0, p1, p2, p3, va. cbn. field. Qed.
Lemma circ_r2 c r : simp_vol [p0; p1; p2; p3] <> 0 -> circumscribed [p0; p1; p2; p3] c r ->
  r = r2 (p0x - p3x) (p0y - p3y) (p0z - p3z) (p1x - p3x) (p1y - p3y) (p1z - p3z) (p2x - p3x) (p2y - p3y) (p2z - p3z).
Proof.
  intros N H. rewrite vol_va in N. unfold circumscribed in H. rewrite Forall_forall in H.
  destruct (H p0) as [L0 E0]; [cbn; tauto|]. destruct (H p1) as [L1 E1]; [cbn; tauto|]. destruct (H p2) as [L2 E2]; [cbn; tauto|]. destruct (H p3) as [L3 E3]; [cbn; tauto|]. clear H. unfold p0 in L0.
  destruct c as [|cx [|cy [|cz [|? ?]]]]; try discriminate L0. unfold p0, p1, p2, p3 in *. cbn [sqnorm_diff] in *.
  rewrite <- (circ_core _ _ _ _ _ _ _ _ _ (cx - p3x) (cy - p3y) (cz - p3z)); [|intros K; apply N; rewrite K; lra|unfold sq; lra..]. lra.
Qed.
End Tet.

Lemma circ_unique s c r c' r' : simplex_points 3 s -> simp_vol s <> 0 -> circumscribed s c r -> circumscribed s c' r' -> r = r'.
Proof.
  intros H N C C'. pts3 s H. rewrite (circ_r2 _ _ _ _ _ _ _ _ _ _ _ _ c r N C). symmetry. apply (circ_r2 _ _ _ _ _ _ _ _ _ _ _ _ c' r' N C').
Qed.
Lemma circ_total s : simplex_points 3 s -> simp_vol s <> 0 -> exists c r, circumscribed s c r.
Proof.
  intros H N. pts3 s H. rewrite vol_va in N.
  match goal with N : - va ?a ?b ?c ?d ?e ?f ?g ?h ?i / 6 <> 0 |- _ => destruct (circ_exists a b c d e f g h i) as [cx [cy [cz [E1 [E2 E3]]]]];
    [intros K; apply N; rewrite K; lra|] end.
  exists [cx + r; cy + r0; cz + r1], (cx ^ 2 + cy ^ 2 + cz ^ 2). unfold sq in *. unfold circumscribed.
  repeat apply Forall_cons; try (split; [reflexivity|cbn [sqnorm_diff]; lra]). apply Forall_nil.
Qed.

Lemma circumsphere_grad_right p0 p1 p2 p3 h f : simplex_points 3 [p0; p1; p2; p3] -> length h = 3%nat -> simp_vol [p0; p1; p2; p3] <> 0 ->
  (forall t, simp_vol [vplus p0 (vtimes t h); p1; p2; p3] <> 0 -> exists c, circumscribed [vplus p0 (vtimes t h); p1; p2; p3] c (f t)) ->
  derivable_pt_lim f 0 (inner (circumsphere_grad p0 p1 p2 p3) h).
Proof.
  intros H Hh N F. destruct H as [_ HF]. repeat match goal with H : List.Forall _ (_ :: _) |- _ => inversion H; subst; clear H end.
  len_list p0. len_list p1. len_list p2. len_list p3. len_list h.
  rename r into p0x, r0 into p0y, r1 into p0z, r3 into p1x, r4 into p1y, r5 into p1z, r6 into p2x, r7 into p2y, r8 into p2z, r9 into p3x, r10 into p3y, r11 into p3z, r12 into hx, r13 into hy, r14 into hz.
  set (x1 := p0x - p3x). set (y1 := p0y - p3y). set (z1 := p0z - p3z).
  set (x2 := p1x - p3x). set (y2 := p1y - p3y). set (z2 := p1z - p3z).
  set (x3 := p2x - p3x). set (y3 := p2y - p3y). set (z3 := p2z - p3z).
  set (A := fun t : R => va (x1 + t * hx) (y1 + t * hy) (z1 + t * hz) x2 y2 z2 x3 y3 z3).
  rewrite vol_va in N. fold x1 y1 z1 x2 y2 z2 x3 y3 z3 in N.
  assert (va x1 y1 z1 x2 y2 z2 x3 y3 z3 <> 0) as N0 by (intros K; apply N; rewrite K; lra).
  assert (forall t, A t <> 0 -> f t = r2 (x1 + t * hx) (y1 + t * hy) (z1 + t * hz) x2 y2 z2 x3 y3 z3) as FE.
  { intros t Ht. assert (simp_vol [[p0x + t * hx; p0y + t * hy; p0z + t * hz]; [p1x; p1y; p1z]; [p2x; p2y; p2z]; [p3x; p3y; p3z]] <> 0) as Nt.
    { rewrite vol_va. intros K. apply Ht. unfold A, x1, y1, z1. fold x2 y2 z2 x3 y3 z3 in K.
      replace (p0x + t * hx - p3x) with (p0x - p3x + t * hx) in K by ring. replace (p0y + t * hy - p3y) with (p0y - p3y + t * hy) in K by ring.
      replace (p0z + t * hz - p3z) with (p0z - p3z + t * hz) in K by ring. lra. }
    destruct (F t Nt) as [c Hc]. cbn in Hc. rewrite (circ_r2 _ _ _ _ _ _ _ _ _ _ _ _ c (f t) Nt Hc). fold x2 y2 z2 x3 y3 z3.
    unfold x1, y1, z1. f_equal; ring. }
  apply is_derive_Reals.
  apply (is_derive_ext_loc (fun t => r2 (x1 + t * hx) (y1 + t * hy) (z1 + t * hz) x2 y2 z2 x3 y3 z3)).
  - assert (continuous A 0) as CA.
    { apply (ex_derive_continuous A). unfold A, va. auto_derive. trivial. }
    assert (locally (A 0) (fun y => y <> 0)) as LA.
    { apply (open_neq 0). unfold A. replace (x1 + 0 * hx) with x1 by ring. replace (y1 + 0 * hy) with y1 by ring. replace (z1 + 0 * hz) with z1 by ring. exact N0. }
    specialize (CA _ LA). unfold filtermap in CA. apply (filter_imp (fun x => A x <> 0)); [intros t Ht; symmetry; apply FE, Ht|exact CA].
  - unfold r2, vDx, vDy, vDz, va, sq. auto_derive.
    + replace (x1 + 0 * hx) with x1 by ring. replace (y1 + 0 * hy) with y1 by ring. replace (z1 + 0 * hz) with z1 by ring.
      unfold va in N0. intros K. apply N0. apply Rmult_integral in K. destruct K as [K|K]; [lra|]. rewrite Rmult_1_r in K. apply Rmult_integral in K. destruct K; lra.
    + cbn [circumsphere_grad inner]. fold x1 y1 z1 x2 y2 z2 x3 y3 z3. unfold va in N0. clear - N0.
      replace (x1 + 0 * hx) with x1 by ring. replace (y1 + 0 * hy) with y1 by ring. replace (z1 + 0 * hz) with z1 by ring.
      field. exact N0.
Qed.
