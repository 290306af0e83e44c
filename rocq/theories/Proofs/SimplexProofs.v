(** Triangle quality and signed volume. *)
From Coq Require Import List ZArith Reals Bool Lia Lra Psatz Permutation.
From Verif Require Import Model.Base Model.SDF Model.Simplex Spec.Geom Proofs.ListAux Proofs.Euclid Proofs.MeshAux.
Import ListNotations.
Local Open Scope R_scope.

Lemma sub_len_edist p : forall q, length p = length q -> sub_len p q = edist p q.
Proof.
  intros q HL. unfold sub_len, edist. f_equal. revert q HL. induction p as [|x p IH]; intros [|y q] HL; cbn in HL; try lia; [reflexivity|].
  injection HL as HL. specialize (IH q HL). unfold map2 in *. cbn. cbn in IH. rewrite IH. ring.
Qed.

(** the quality as a function of the sides *)
Definition mprod (a b c : R) : R := (b + c - a) * (c + a - b) * (a + b - c).
Definition heron (a b c : R) : R := (a + b + c) * (b + c - a) * (c + a - b) * (a + b - c).
Definition qual_sides (a b c : R) : option R :=
  if Reqb a 0 || Reqb b 0 || Reqb c 0 then None else Some (mprod a b c / (a * b * c)).
Lemma tri_sides_pos a b c : 0 <= a -> 0 <= b -> 0 <= c -> a <= b + c -> b <= a + c -> c <= a + b -> 0 <= mprod a b c.
Proof. intros. unfold mprod. apply Rmult_le_pos; [apply Rmult_le_pos|]; lra. Qed.
Lemma qual_formula a b c : 0 < a -> 0 < b -> 0 < c -> a <= b + c -> b <= a + c -> c <= a + b ->
  (if Reqb (heron a b c) 0 then Some 0 else
   Some (2 * (5 / 10 * sqrt (mprod a b c / (a + b + c))) / (a * b * c / sqrt (heron a b c)))) = Some (mprod a b c / (a * b * c)).
Proof.
  intros Ha Hb Hc H1 H2 H3. assert (0 < a * b * c) as P by (repeat apply Rmult_lt_0_compat; assumption).
  pose proof (tri_sides_pos a b c ltac:(lra) ltac:(lra) ltac:(lra) H1 H2 H3) as M.
  assert (heron a b c = (a + b + c) * mprod a b c) as HE by (unfold heron, mprod; ring).
  destruct (Reqb (heron a b c) 0) eqn:E.
  - apply Reqb_true in E. assert (mprod a b c = 0) as ->; [|f_equal; field; lra].
    rewrite HE in E. apply Rmult_integral in E. destruct E; [lra|assumption].
  - apply Reqb_false in E. f_equal.
    assert (0 < mprod a b c) as MP. { destruct M as [M|M]; [exact M|]. exfalso. apply E. rewrite HE, <- M. ring. }
    assert (0 < heron a b c) as HP by (rewrite HE; apply Rmult_lt_0_compat; lra).
    assert (sqrt (mprod a b c / (a + b + c)) * sqrt (heron a b c) = mprod a b c) as SQ.
    { rewrite <- sqrt_mult. 2:{ apply Rlt_le, Rdiv_lt_0_compat; lra. } 2: lra.
      rewrite HE. replace (mprod a b c / (a + b + c) * ((a + b + c) * mprod a b c)) with (mprod a b c * mprod a b c) by (field; lra).
      apply sqrt_square. lra. }
    pose proof (sqrt_lt_R0 _ HP) as SP.
    transitivity (sqrt (mprod a b c / (a + b + c)) * sqrt (heron a b c) / (a * b * c)).
    + field. split; [lra|]. repeat split; try lra.
    + rewrite SQ. reflexivity.
Qed.
Section Tri.
Variables p q r : list R.
Hypothesis (Hpq : length p = length q) (Hqr : length q = length r).
Lemma simp_qual_sides rest : simp_qual (p :: q :: r :: rest) = qual_sides (edist q p) (edist r p) (edist r q).
Proof.
  unfold simp_qual, qual_sides. cbn [nth]. rewrite !sub_len_edist by congruence.
  destruct (Reqb (edist q p) 0 || Reqb (edist r p) 0 || Reqb (edist r q) 0) eqn:E; [reflexivity|].
  apply orb_false_iff in E. destruct E as [E E3]. apply orb_false_iff in E. destruct E as [E1 E2].
  apply Reqb_false in E1, E2, E3. pose proof (edist_nonneg q p). pose proof (edist_nonneg r p). pose proof (edist_nonneg r q).
  pose proof (triangle q r p ltac:(congruence) ltac:(congruence)) as T1. pose proof (triangle r q p ltac:(congruence) ltac:(congruence)) as T2.
  pose proof (triangle r p q ltac:(congruence) ltac:(congruence)) as T3. rewrite (edist_sym q r) in T1. rewrite (edist_sym p q) in T3.
  fold (mprod (edist q p) (edist r p) (edist r q)). fold (heron (edist q p) (edist r p) (edist r q)).
  apply qual_formula; lra.
Qed.
End Tri.

Lemma mprod_le a b c : a <= b + c -> b <= a + c -> c <= a + b -> mprod a b c <= a * b * c.
Proof.
  intros H1 H2 H3. unfold mprod.
  assert (a * b * c - (b + c - a) * (c + a - b) * (a + b - c) =
    ((b + c - a) * ((b - c) * (b - c)) + (c + a - b) * ((c - a) * (c - a)) + (a + b - c) * ((a - b) * (a - b))) / 2) as E by field.
  assert (0 <= (b + c - a) * ((b - c) * (b - c))) by (apply Rmult_le_pos; [lra|apply Rle_0_sqr]).
  assert (0 <= (c + a - b) * ((c - a) * (c - a))) by (apply Rmult_le_pos; [lra|apply Rle_0_sqr]).
  assert (0 <= (a + b - c) * ((a - b) * (a - b))) by (apply Rmult_le_pos; [lra|apply Rle_0_sqr]). lra.
Qed.
Lemma mprod_eq a b c : 0 < a -> 0 < b -> 0 < c -> a <= b + c -> b <= a + c -> c <= a + b -> mprod a b c = a * b * c -> a = b /\ b = c.
Proof.
  intros Ha Hb Hc H1 H2 H3 H. unfold mprod in H.
  assert (a * b * c - (b + c - a) * (c + a - b) * (a + b - c) =
    ((b + c - a) * ((b - c) * (b - c)) + (c + a - b) * ((c - a) * (c - a)) + (a + b - c) * ((a - b) * (a - b))) / 2) as E by field.
  assert (0 < a * b * c) as P by (repeat apply Rmult_lt_0_compat; assumption).
  assert (b + c - a <> 0 /\ c + a - b <> 0 /\ a + b - c <> 0) as [N1 [N2 N3]].
  { rewrite <- H in P. repeat split; intros K; rewrite K in P; lra. }
  assert (0 <= (b + c - a) * ((b - c) * (b - c))) by (apply Rmult_le_pos; [lra|apply Rle_0_sqr]).
  assert (0 <= (c + a - b) * ((c - a) * (c - a))) by (apply Rmult_le_pos; [lra|apply Rle_0_sqr]).
  assert (0 <= (a + b - c) * ((a - b) * (a - b))) by (apply Rmult_le_pos; [lra|apply Rle_0_sqr]).
  assert ((b + c - a) * ((b - c) * (b - c)) = 0) as Z1 by lra. assert ((a + b - c) * ((a - b) * (a - b)) = 0) as Z3 by lra.
  apply Rmult_integral in Z1, Z3. destruct Z1 as [Z1|Z1]; [contradiction|]. destruct Z3 as [Z3|Z3]; [contradiction|].
  apply Rmult_integral in Z1, Z3. lra.
Qed.

(** 2D: Heron's product is 16 times the squared area *)
Lemma heron_sq a b c : heron a b c = 2 * (a^2 * b^2 + b^2 * c^2 + c^2 * a^2) - (a^4 + b^4 + c^4).
Proof. unfold heron. ring. Qed.
Lemma heron_area x0 y0 x1 y1 x2 y2 :
  heron (edist [x1;y1] [x0;y0]) (edist [x2;y2] [x0;y0]) (edist [x2;y2] [x1;y1]) = 16 * simp_vol [[x0;y0];[x1;y1];[x2;y2]] ^ 2.
Proof.
  rewrite heron_sq. replace (edist [x1;y1] [x0;y0] ^ 4) with ((edist [x1;y1] [x0;y0] ^ 2) ^ 2) by ring.
  replace (edist [x2;y2] [x0;y0] ^ 4) with ((edist [x2;y2] [x0;y0] ^ 2) ^ 2) by ring.
  replace (edist [x2;y2] [x1;y1] ^ 4) with ((edist [x2;y2] [x1;y1] ^ 2) ^ 2) by ring.
  rewrite !edist_sq. cbn. field.
Qed.
Lemma tri_nondeg x0 y0 x1 y1 x2 y2 : simp_vol [[x0;y0];[x1;y1];[x2;y2]] <> 0 ->
  let a := edist [x1;y1] [x0;y0] in let b := edist [x2;y2] [x0;y0] in let c := edist [x2;y2] [x1;y1] in
  0 < a /\ 0 < b /\ 0 < c /\ a < b + c /\ b < a + c /\ c < a + b.
Proof.
  intros N a b c. pose proof (heron_area x0 y0 x1 y1 x2 y2) as H. fold a b c in H.
  assert (0 < heron a b c) as P by (rewrite H; apply Rmult_lt_0_compat; [lra|]; rewrite <- Rsqr_pow2; apply Rlt_0_sqr, N).
  assert (0 <= a) by apply edist_nonneg. assert (0 <= b) by apply edist_nonneg. assert (0 <= c) by apply edist_nonneg.
  pose proof (triangle [x1;y1] [x2;y2] [x0;y0] eq_refl eq_refl) as T1. pose proof (triangle [x2;y2] [x1;y1] [x0;y0] eq_refl eq_refl) as T2.
  pose proof (triangle [x2;y2] [x0;y0] [x1;y1] eq_refl eq_refl) as T3. rewrite (edist_sym [x1;y1] [x2;y2]) in T1. rewrite (edist_sym [x0;y0] [x1;y1]) in T3.
  fold a b c in T1, T2, T3. unfold heron in P.
  assert (b + c - a <> 0) by (intros K; rewrite K in P; lra).
  assert (c + a - b <> 0) by (intros K; rewrite K in P; lra).
  assert (a + b - c <> 0) by (intros K; rewrite K in P; lra). lra.
Qed.
Lemma qual_range x0 y0 x1 y1 x2 y2 : simp_vol [[x0;y0];[x1;y1];[x2;y2]] <> 0 ->
  exists q, simp_qual [[x0;y0];[x1;y1];[x2;y2]] = Some q /\ 0 < q <= 1 /\
   (q = 1 <-> edist [x0;y0] [x1;y1] = edist [x1;y1] [x2;y2] /\ edist [x1;y1] [x2;y2] = edist [x2;y2] [x0;y0]).
Proof.
  intros N. pose proof (tri_nondeg x0 y0 x1 y1 x2 y2 N) as [Ha [Hb [Hc [T1 [T2 T3]]]]].
  rewrite (simp_qual_sides [x0;y0] [x1;y1] [x2;y2] eq_refl eq_refl []). unfold qual_sides.
  rewrite (edist_sym [x0;y0] [x1;y1]), (edist_sym [x1;y1] [x2;y2]).
  set (a := edist [x1;y1] [x0;y0]) in *. set (b := edist [x2;y2] [x0;y0]) in *. set (c := edist [x2;y2] [x1;y1]) in *.
  rewrite (proj2 (Reqb_false a 0)) by lra. rewrite (proj2 (Reqb_false b 0)) by lra. rewrite (proj2 (Reqb_false c 0)) by lra.
  cbn [orb]. eexists; split; [reflexivity|].
  assert (0 < a * b * c) as P by (repeat apply Rmult_lt_0_compat; assumption).
  assert (0 < mprod a b c) as MP by (unfold mprod; repeat apply Rmult_lt_0_compat; lra).
  pose proof (mprod_le a b c ltac:(lra) ltac:(lra) ltac:(lra)) as ML. split; [split|].
  - apply Rdiv_lt_0_compat; assumption.
  - apply Rmult_le_reg_r with (a * b * c); [exact P|]. unfold Rdiv. rewrite Rmult_assoc, Rinv_l by lra. lra.
  - split.
    + intros E. assert (mprod a b c = a * b * c) as EQ. { apply (f_equal (fun z => z * (a * b * c))) in E. unfold Rdiv in E. rewrite Rmult_assoc, Rinv_l in E by lra. lra. }
      destruct (mprod_eq a b c Ha Hb Hc ltac:(lra) ltac:(lra) ltac:(lra) EQ). split; congruence.
    + intros [E1 E2]. rewrite <- E2, E1. unfold mprod. field. lra.
Qed.

(** similarities *)
Lemma qual_sides_scale s a b c : 0 < s -> qual_sides (s * a) (s * b) (s * c) = qual_sides a b c.
Proof.
  intros Hs. unfold qual_sides. assert (forall x, Reqb (s * x) 0 = Reqb x 0) as R.
  { intros x. destruct (Reqb x 0) eqn:E; [apply Reqb_true in E; subst; rewrite Rmult_0_r; apply Reqb_true; reflexivity|].
    apply Reqb_false in E. apply Reqb_false. intros K. apply Rmult_integral in K. destruct K; [lra|contradiction]. }
  rewrite !R. destruct (Reqb a 0 || Reqb b 0 || Reqb c 0) eqn:E; [reflexivity|].
  apply orb_false_iff in E. destruct E as [E E3]. apply orb_false_iff in E. destruct E as [E1 E2]. apply Reqb_false in E1, E2, E3.
  f_equal. unfold mprod. field. repeat split; try assumption; lra.
Qed.
Lemma qual_similarity (f : list R -> list R) s p q r : 0 < s -> length p = length q -> length q = length r ->
  (forall x y, In x [p;q;r] -> In y [p;q;r] -> length (f x) = length (f y) /\ edist (f x) (f y) = s * edist x y) ->
  simp_qual [f p; f q; f r] = simp_qual [p; q; r].
Proof.
  intros Hs H1 H2 HF.
  destruct (HF q p) as [L1 D1]; [cbn; tauto..|]. destruct (HF r p) as [L2 D2]; [cbn; tauto..|]. destruct (HF r q) as [L3 D3]; [cbn; tauto..|].
  rewrite !simp_qual_sides by congruence. rewrite D1, D2, D3. apply qual_sides_scale, Hs.
Qed.
(** order of the corners *)
Lemma qual_sides_sym12 a b c : qual_sides a b c = qual_sides b a c.
Proof.
  unfold qual_sides. rewrite (orb_comm (Reqb a 0) (Reqb b 0)). destruct (Reqb b 0 || Reqb a 0 || Reqb c 0); [reflexivity|]. replace (mprod b a c) with (mprod a b c) by (unfold mprod; ring). replace (b * a * c) with (a * b * c) by ring. reflexivity.
Qed.
Lemma qual_sides_sym23 a b c : qual_sides a b c = qual_sides a c b.
Proof.
  unfold qual_sides. rewrite <- !orb_assoc, (orb_comm (Reqb b 0) (Reqb c 0)). destruct (Reqb a 0 || (Reqb c 0 || Reqb b 0)); [reflexivity|]. replace (mprod a c b) with (mprod a b c) by (unfold mprod; ring). replace (a * c * b) with (a * b * c) by ring. reflexivity.
Qed.
Lemma qual_perm p q r s : length p = length q -> length q = length r -> Permutation s [p; q; r] -> simp_qual s = simp_qual [p; q; r].
Proof.
  intros H1 H2 HP. assert (forall x y z, length x = length p -> length y = length p -> length z = length p ->
     simp_qual [x;y;z] = simp_qual [y;x;z] /\ simp_qual [x;y;z] = simp_qual [x;z;y]) as SW.
  { intros x y z L1 L2 L3. rewrite !simp_qual_sides by congruence. split.
    - rewrite (edist_sym x y), qual_sides_sym23. reflexivity.
    - rewrite (edist_sym y z), qual_sides_sym12. reflexivity. }
  assert (length s = 3%nat) as L by (rewrite (Permutation_length HP); reflexivity).
  destruct s as [|x [|y [|z [|w s]]]]; cbn in L; try lia. clear L.
  assert (forall u, In u [x;y;z] -> length u = length p) as LU.
  { intros u Hu. apply (Permutation_in _ HP) in Hu. cbn in Hu. destruct Hu as [<- | [<- | [<- | []]]]; congruence. }
  assert (length x = length p /\ length y = length p /\ length z = length p) as [Lx [Ly Lz]] by (repeat split; apply LU; cbn; tauto).
  assert (length q = length p) as Lq by congruence. assert (length r = length p) as Lr by congruence.
  pose proof (Permutation_in p (Permutation_sym HP) ltac:(cbn; tauto)) as Ip.
  cbn in Ip. destruct Ip as [-> | [-> | [-> | []]]].
  - apply Permutation_cons_inv in HP. apply Permutation_sym, Permutation_length_2_inv in HP.
    destruct HP as [HP|HP]; inversion HP; subst; [reflexivity|apply SW; congruence].
  - assert (Permutation [x; z] [q; r]) as HP2 by (apply (Permutation_cons_inv (a := p)); rewrite <- HP; apply perm_swap).
    apply Permutation_sym, Permutation_length_2_inv in HP2. rewrite (proj1 (SW x p z Lx eq_refl Lz)).
    destruct HP2 as [HP2|HP2]; inversion HP2; subst; [reflexivity|apply SW; congruence].
  - assert (Permutation [x; y] [q; r]) as HP2.
    { apply (Permutation_cons_inv (a := p)). rewrite <- HP. transitivity [x; p; y]; [apply perm_swap|apply perm_skip, perm_swap]. }
    apply Permutation_sym, Permutation_length_2_inv in HP2. rewrite (proj2 (SW x y p Lx Ly eq_refl)), (proj1 (SW x p y Lx eq_refl Ly)).
    destruct HP2 as [HP2|HP2]; inversion HP2; subst; [reflexivity|apply SW; congruence].
Qed.

Lemma edist_dx x y x' y' : Rabs (x - x') <= edist [x;y] [x';y'].
Proof.
  unfold edist. cbn. rewrite <- sqrt_Rsqr_abs. apply sqrt_le_1_alt. unfold Rsqr. pose proof (Rle_0_sqr (y - y')) as H. unfold Rsqr in H. lra.
Qed.
(** a sufficient condition for poor quality without square roots *)
Lemma qual_upper x0 y0 x1 y1 x2 y2 mq : let d1 := Rabs (x1 - x0) in let d2 := Rabs (x2 - x0) in let d3 := Rabs (x2 - x1) in
  0 < d1 -> 0 < d2 -> 0 < d3 -> 0 <= mq ->
  16 * simp_vol [[x0;y0];[x1;y1];[x2;y2]] ^ 2 < mq * ((d1 + d2 + d3) * (d1 * d2 * d3)) ->
  exists q, simp_qual [[x0;y0];[x1;y1];[x2;y2]] = Some q /\ q < mq.
Proof.
  intros d1 d2 d3 H1 H2 H3 HM HA. rewrite (simp_qual_sides [x0;y0] [x1;y1] [x2;y2] eq_refl eq_refl []). unfold qual_sides.
  rewrite <- heron_area in HA.
  pose proof (edist_dx x1 y1 x0 y0) as D1. pose proof (edist_dx x2 y2 x0 y0) as D2. pose proof (edist_dx x2 y2 x1 y1) as D3. fold d1 in D1. fold d2 in D2. fold d3 in D3.
  set (a := edist [x1;y1] [x0;y0]) in *. set (b := edist [x2;y2] [x0;y0]) in *. set (c := edist [x2;y2] [x1;y1]) in *.
  rewrite (proj2 (Reqb_false a 0)) by lra. rewrite (proj2 (Reqb_false b 0)) by lra. rewrite (proj2 (Reqb_false c 0)) by lra.
  cbn [orb]. eexists; split; [reflexivity|].
  assert (0 < a * b * c) as P by (repeat apply Rmult_lt_0_compat; lra).
  assert (d1 * d2 * d3 <= a * b * c) as M1 by (apply Rmult_le_compat; [apply Rmult_le_pos; lra|lra|apply Rmult_le_compat; lra|lra]).
  assert ((d1 + d2 + d3) * (d1 * d2 * d3) <= (a + b + c) * (a * b * c)) as M2.
  { apply Rmult_le_compat; [lra|repeat apply Rmult_le_pos; lra|lra|exact M1]. }
  assert (mq * ((d1 + d2 + d3) * (d1 * d2 * d3)) <= mq * ((a + b + c) * (a * b * c))) as M3 by (apply Rmult_le_compat_l; assumption).
  assert (heron a b c = (a + b + c) * mprod a b c) as HE by (unfold heron, mprod; ring).
  assert (mprod a b c < mq * (a * b * c)) as K.
  { apply Rmult_lt_reg_l with (a + b + c); [lra|]. rewrite <- HE. lra. }
  apply Rmult_lt_reg_r with (a * b * c); [exact P|]. unfold Rdiv. rewrite Rmult_assoc, Rinv_l by lra. lra.
Qed.

(** ---- signed volumes ---- *)
Definition shift (h p : list R) : list R := map2 Rplus p h.
Definition rscale (s : R) (p : list R) : list R := map (Rmult s) p.
Lemma vol2_translate h0 h1 x0 y0 x1 y1 x2 y2 :
  simp_vol (map (shift [h0;h1]) [[x0;y0];[x1;y1];[x2;y2]]) = simp_vol [[x0;y0];[x1;y1];[x2;y2]].
Proof. cbn. lra. Qed.
Lemma vol3_translate h0 h1 h2 x0 y0 z0 x1 y1 z1 x2 y2 z2 x3 y3 z3 :
  simp_vol (map (shift [h0;h1;h2]) [[x0;y0;z0];[x1;y1;z1];[x2;y2;z2];[x3;y3;z3]]) = simp_vol [[x0;y0;z0];[x1;y1;z1];[x2;y2;z2];[x3;y3;z3]].
Proof. cbn. lra. Qed.
