(** Point location in triangles and tetrahedra. *)
From Coq Require Import List ZArith Reals Bool Arith Lia Lra.
From Verif Require Import Model.Base Model.SDF Model.Simplex Model.Mesh Model.Formulas Spec.Linear Proofs.ListAux Proofs.SDFPrim Proofs.FormulaProofs.
Import ListNotations.
Local Open Scope R_scope.

Lemma in_hull3 (P : R -> Prop) n p1 p2 p3 q :
  (exists s, length s = length [p1; p2; p3] /\ Forall P s /\ total s = 1 /\ q = combination n s [p1; p2; p3]) <->
  exists a b c, P a /\ P b /\ P c /\ a + b + c = 1 /\ q = combination n [a; b; c] [p1; p2; p3].
Proof.
  split.
  - intros [s [L [F [T E]]]]. destruct s as [|a [|b [|c [|? ?]]]]; try discriminate L. rewrite Forall_forall in F.
    exists a, b, c. repeat split; try (apply F; cbn; tauto); [cbn in T; lra|exact E].
  - intros [a [b [c [Ha [Hb [Hc [T E]]]]]]]. exists [a; b; c]. repeat split; [|cbn; lra|exact E]. repeat (apply Forall_cons; [assumption|]). apply Forall_nil.
Qed.
Lemma in_hull4 (P : R -> Prop) n p1 p2 p3 p4 q :
  (exists s, length s = length [p1; p2; p3; p4] /\ Forall P s /\ total s = 1 /\ q = combination n s [p1; p2; p3; p4]) <->
  exists a b c d, P a /\ P b /\ P c /\ P d /\ a + b + c + d = 1 /\ q = combination n [a; b; c; d] [p1; p2; p3; p4].
Proof.
  split.
  - intros [s [L [F [T E]]]]. destruct s as [|a [|b [|c [|d [|? ?]]]]]; try discriminate L. rewrite Forall_forall in F.
    exists a, b, c, d. repeat split; try (apply F; cbn; tauto); [cbn in T; lra|exact E].
  - intros [a [b [c [d [Ha [Hb [Hc [Hd [T E]]]]]]]]]. exists [a; b; c; d]. repeat split; [|cbn; lra|exact E]. repeat (apply Forall_cons; [assumption|]). apply Forall_nil.
Qed.

Lemma in2_degenerate s q : simplex_points 2 s -> length q = 2%nat -> simp_vol s = 0 -> vertex_in_entity2 q (concat s) = false.
Proof.
  intros H Hq Z. pts2 s H. cbn in Z |- *. rewrite (proj2 (Reqb_true _ 0)) by lra. reflexivity.
Qed.
Lemma in2_spec s q : simplex_points 2 s -> length q = 2%nat -> simp_vol s <> 0 -> (vertex_in_entity2 q (concat s) = true <-> in_hull 2 s q).
Proof.
  intros H Hq N. destruct s as [|p1 [|p2 [|p3 [|? ?]]]]; try (destruct H; discriminate). unfold in_hull. rewrite in_hull3.
  destruct H as [_ HF]. repeat match goal with H : Forall _ (_ :: _) |- _ => inversion H; subst; clear H end.
  len_list p1. len_list p2. len_list p3. len_list q. rename r into x1, r0 into y1, r1 into x2, r2 into y2, r3 into x3, r4 into y3, r5 into x, r6 into y.
  cbn [concat app vertex_in_entity2]. set (den := (y2 - y3) * (x1 - x3) + (x3 - x2) * (y1 - y3)).
  assert (den <> 0) as Nd by (unfold den; cbn in N; intros K; apply N; lra). rewrite (proj2 (Reqb_false den 0) Nd).
  set (a := ((y2 - y3) * (x - x3) + (x3 - x2) * (y - y3)) / den). set (b := ((y3 - y1) * (x - x3) + (x1 - x3) * (y - y3)) / den).
  rewrite !andb_true_iff, !Rleb_true. split.
  - intros H. exists a, b, (1 - a - b). repeat split; try lra. cbn. f_equal; [|f_equal]; unfold a, b; field_simplify; try (exact Nd); unfold den; field; fold den; exact Nd.
  - intros [a' [b' [c' [Ha [Hb [Hc [T E]]]]]]]. cbn in E. inversion E; subst x y. clear E.
    assert (a = a') as ->. { unfold a. replace c' with (1 - a' - b') by lra. unfold den. field. fold den. exact Nd. }
    assert (b = b') as ->. { unfold b. replace c' with (1 - a' - b') by lra. unfold den. field. fold den. exact Nd. }
    lra.
Qed.

Lemma rsign_pos x : rsign x = 1%Z <-> 0 < x.
Proof. unfold rsign. destruct (Rltb 0 x) eqn:E; [apply Rltb_true in E; tauto|]. apply Rltb_false in E. destruct (Rltb x 0); split; intros; try discriminate; lra. Qed.
Lemma rsign_neg x : rsign x = (-1)%Z <-> x < 0.
Proof. unfold rsign. destruct (Rltb 0 x) eqn:E; [apply Rltb_true in E; split; intros; try discriminate; lra|]. apply Rltb_false in E.
  destruct (Rltb x 0) eqn:E2; [apply Rltb_true in E2; tauto|]. apply Rltb_false in E2. split; intros; try discriminate; lra. Qed.
Lemma signs_core a b c d e : (if negb (b =? a)%Z then false else if negb (c =? b)%Z then false else if negb (d =? c)%Z then false else if negb (e =? d)%Z then false
   else forallb (Z.eqb (-1)) [a; b; c; d; e] || forallb (Z.eqb 1) [a; b; c; d; e]) = true <->
   (a = 1 /\ b = 1 /\ c = 1 /\ d = 1 /\ e = 1)%Z \/ (a = -1 /\ b = -1 /\ c = -1 /\ d = -1 /\ e = -1)%Z.
Proof.
  split.
  - destruct (Z.eqb_spec b a); [|discriminate]. destruct (Z.eqb_spec c b); [|discriminate]. destruct (Z.eqb_spec d c); [|discriminate]. destruct (Z.eqb_spec e d); [|discriminate].
    cbn [negb]. rewrite orb_true_iff. cbn [forallb]. rewrite !andb_true_iff, !Z.eqb_eq. lia.
  - intros [H|H]; destruct H as [-> [-> [-> [-> ->]]]]; reflexivity.
Qed.
Lemma in3_spec s q : simplex_points 3 s -> length q = 3%nat -> (vertex_in_entity3 q (concat s) = true <-> simp_vol s <> 0 /\ in_open_hull 3 s q).
Proof.
  intros H Hq. destruct s as [|p1 [|p2 [|p3 [|p4 [|? ?]]]]]; try (destruct H; discriminate). unfold in_open_hull. rewrite in_hull4.
  pose proof H as [_ HF]. 
  assert (length p1 = 3 /\ length p2 = 3 /\ length p3 = 3 /\ length p4 = 3)%nat as [L1 [L2 [L3 L4]]] by (rewrite Forall_forall in HF; repeat split; apply HF; cbn; tauto). clear HF H.
  assert (vertex_in_entity3 q (concat [p1;p2;p3;p4]) = true <->
    let v0 := simp_vol [p1;p2;p3;p4] in let v1 := simp_vol [q;p2;p3;p4] in let v2 := simp_vol [p1;q;p3;p4] in let v3 := simp_vol [p1;p2;q;p4] in let v4 := simp_vol [p1;p2;p3;q] in
    (0 < v0 /\ 0 < v1 /\ 0 < v2 /\ 0 < v3 /\ 0 < v4) \/ (v0 < 0 /\ v1 < 0 /\ v2 < 0 /\ v3 < 0 /\ v4 < 0)) as ->.
  { assert (forall u1 u2 u3 u4, length u1 = 3%nat -> length u2 = 3%nat -> length u3 = 3%nat -> length u4 = 3%nat ->
      det4 (hom u1 ++ hom u2 ++ hom u3 ++ hom u4) = - 6 * simp_vol [u1;u2;u3;u4]) as D.
    { intros u1 u2 u3 u4 K1 K2 K3 K4. rewrite <- det4_vol; [cbn [map concat]; rewrite app_nil_r; reflexivity|]. split; [reflexivity|].
      repeat (apply Forall_cons; [assumption|]). apply Forall_nil. }
    pose proof (D p1 p2 p3 p4 L1 L2 L3 L4) as D0. pose proof (D q p2 p3 p4 Hq L2 L3 L4) as D1. pose proof (D p1 q p3 p4 L1 Hq L3 L4) as D2.
    pose proof (D p1 p2 q p4 L1 L2 Hq L4) as D3. pose proof (D p1 p2 p3 q L1 L2 L3 Hq) as D4. clear D.
    assert (concat [p1;p2;p3;p4] = p1 ++ p2 ++ p3 ++ p4) as -> by (cbn; rewrite app_nil_r; reflexivity).
    len_list p1. len_list p2. len_list p3. len_list p4. cbn [app vertex_in_entity3]. rewrite D0, D1, D2, D3, D4, signs_core, !rsign_pos, !rsign_neg.
    cbv zeta. lra. }
  len_list p1. len_list p2. len_list p3. len_list p4. len_list q.
  rename r into x1, r0 into y1, r1 into z1, r2 into x2, r3 into y2, r4 into z2, r5 into x3, r6 into y3, r7 into z3, r8 into x4, r9 into y4, r10 into z4, r11 into x, r12 into y, r13 into z.
  pose proof (vol_split 3 [[x1;y1;z1];[x2;y2;z2];[x3;y3;z3];[x4;y4;z4]] [x;y;z] (or_intror eq_refl)) as SP. cbn [seq map upd fold_right] in SP. 
  cbv zeta. set (v0 := simp_vol [[x1;y1;z1];[x2;y2;z2];[x3;y3;z3];[x4;y4;z4]]) in *.
  set (v1 := simp_vol [[x;y;z];[x2;y2;z2];[x3;y3;z3];[x4;y4;z4]]) in *. set (v2 := simp_vol [[x1;y1;z1];[x;y;z];[x3;y3;z3];[x4;y4;z4]]) in *.
  set (v3 := simp_vol [[x1;y1;z1];[x2;y2;z2];[x;y;z];[x4;y4;z4]]) in *. set (v4 := simp_vol [[x1;y1;z1];[x2;y2;z2];[x3;y3;z3];[x;y;z]]) in *.
  assert (v1 + v2 + v3 + v4 = v0) as SV by (rewrite <- SP; [lra|split; [reflexivity|repeat (apply Forall_cons; [reflexivity|]); apply Forall_nil]|reflexivity]). clear SP.
  split.
  - intros H. assert (v0 <> 0) as N0 by lra. split; [exact N0|]. exists (v1 / v0), (v2 / v0), (v3 / v0), (v4 / v0).
    assert (forall u, (0 < v0 /\ 0 < u) \/ (v0 < 0 /\ u < 0) -> 0 < u / v0) as Q.
    { intros u [[A B]|[A B]]; [apply Rdiv_lt_0_compat; assumption|]. replace (u / v0) with (- u / - v0) by (field; lra). apply Rdiv_lt_0_compat; lra. }
    split; [apply Q; lra|]. split; [apply Q; lra|]. split; [apply Q; lra|]. split; [apply Q; lra|].
    split; [rewrite <- !Rdiv_plus_distr, SV; field; exact N0|].
    assert (forall u w, u * v0 = w -> u = w / v0) as K by (intros u w <-; field; exact N0).
    cbn [combination]; unfold vtimes; cbn [map repeat vplus]. f_equal; [|f_equal; [|f_equal]].
    + transitivity ((v1 * x1 + v2 * x2 + v3 * x3 + v4 * x4) / v0); [apply K; unfold v0, v1, v2, v3, v4; cbn [simp_vol]; field|field; exact N0].
    + transitivity ((v1 * y1 + v2 * y2 + v3 * y3 + v4 * y4) / v0); [apply K; unfold v0, v1, v2, v3, v4; cbn [simp_vol]; field|field; exact N0].
    + transitivity ((v1 * z1 + v2 * z2 + v3 * z3 + v4 * z4) / v0); [apply K; unfold v0, v1, v2, v3, v4; cbn [simp_vol]; field|field; exact N0].
  - intros [N0 [a [b [c [d [Ha [Hb [Hc [Hd [T E]]]]]]]]]]. cbn in E. inversion E; subst x y z. clear E.
    assert (v1 = a * v0) as E1 by (unfold v1, v0; cbn [simp_vol]; replace d with (1 - a - b - c) by lra; field).
    assert (v2 = b * v0) as E2 by (unfold v2, v0; cbn [simp_vol]; replace d with (1 - a - b - c) by lra; field).
    assert (v3 = c * v0) as E3 by (unfold v3, v0; cbn [simp_vol]; replace d with (1 - a - b - c) by lra; field).
    assert (v4 = d * v0) as E4 by (replace d with (1 - a - b - c) by lra; lra).
    rewrite E1, E2, E3, E4. assert (forall u, 0 < u -> 0 < v0 -> 0 < u * v0) as P by (intros; apply Rmult_lt_0_compat; assumption).
    assert (forall u, 0 < u -> v0 < 0 -> u * v0 < 0) as M by (intros u Hu Hv; pose proof (Rmult_lt_0_compat u (- v0) Hu ltac:(lra)); lra).
    destruct (Rlt_dec 0 v0) as [V|V]; [left|right]; repeat split; try lra; try (apply P; assumption); apply M; (assumption || lra).
Qed.
