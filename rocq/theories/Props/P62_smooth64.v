(** C127: laplacian2 in double precision.  [steps], [apart_at_most], [on_boundary], [coord]: Spec/Smooth.v (exact averaging sweeps). *)
From Coq Require Import List ZArith Reals Bool Arith Lia Lra Permutation.
From Flocq Require Import Core.
From Verif Require Import Model.Base Model.FastHJ Model.SDF Model.Simplex Model.Mesh Model.Laplace Model.Laplace64 Spec.MeshTopo Spec.Smooth Spec.Energy Proofs.ListAux Proofs.MeshAux
  Proofs.EdgeProofs Proofs.TopoProofs Proofs.LaplaceProofs Proofs.GridIndex Proofs.SnapProofs Proofs.RoundProofs Proofs.ConvergeProofs Proofs.Laplace64Proofs Props.P06_mesh.
Import ListNotations.
Local Open Scope R_scope.

Lemma bpow500 : rnd64 (/ 2 ^ 500) = / 2 ^ 500.
Proof.
  replace (/ 2 ^ 500) with (bpow radix2 (-500)).
  - unfold rnd64. apply round_generic; [typeclasses eauto|]. apply generic_format_bpow. unfold FLT_exp. lia.
  - rewrite bpow_opp with (e := 500%Z). f_equal. rewrite <- (IZR_Zpower radix2 500) by lia. rewrite pow_IZR. reflexivity.
Qed.
Lemma bpow1000 : rnd64 (/ 2 ^ 1000) = / 2 ^ 1000.
Proof.
  replace (/ 2 ^ 1000) with (bpow radix2 (-1000)).
  - unfold rnd64. apply round_generic; [typeclasses eauto|]. apply generic_format_bpow. unfold FLT_exp. lia.
  - rewrite bpow_opp with (e := 1000%Z). f_equal. rewrite <- (IZR_Zpower radix2 1000) by lia. rewrite pow_IZR. reflexivity.
Qed.
Lemma rnd64_opp x : rnd64 (- x) = - rnd64 x.
Proof. unfold rnd64. apply round_NE_opp. Qed.
Lemma far_square d : / 2 ^ 500 <= Rabs d -> / 2 ^ 1000 <= rnd64 (rnd64 d * rnd64 d).
Proof.
  intros H. assert (/ 2 ^ 500 <= Rabs (rnd64 d)) as A.
  { destruct (Rle_dec 0 d) as [P|P].
    - rewrite Rabs_pos_eq in H by exact P. rewrite Rabs_pos_eq by (apply rnd64_pos, P). rewrite <- bpow500. apply rnd64_le, H.
    - rewrite Rabs_left in H by lra. rewrite <- Rabs_Ropp, <- rnd64_opp. rewrite Rabs_pos_eq by (apply rnd64_pos; lra). rewrite <- bpow500. apply rnd64_le, H. }
  rewrite <- bpow1000. apply rnd64_le. rewrite <- (Rabs_pos_eq (rnd64 d * rnd64 d)) by (apply Rle_0_sqr). rewrite Rabs_mult.
  replace (/ 2 ^ 1000) with (/ 2 ^ 500 * / 2 ^ 500) by (rewrite <- Rinv_mult; f_equal; rewrite <- pow_add; reflexivity).
  assert (0 <= / 2 ^ 500) by (left; apply Rinv_0_lt_compat, pow_lt; lra). apply Rmult_le_compat; assumption.
Qed.
Lemma sq64_pair a b c d : sq64 [a; b] [c; d] = rnd64 (rnd64 (0 + rnd64 (rnd64 (a - c) * rnd64 (a - c))) + rnd64 (rnd64 (b - d) * rnd64 (b - d))).
Proof. reflexivity. Qed.
Lemma sq64_self a b : sq64 [a; b] [a; b] = 0.
Proof. rewrite sq64_pair. rewrite !Rminus_diag_eq by reflexivity. repeat first [rewrite rnd64_0|rewrite Rmult_0_l|rewrite Rplus_0_l]. reflexivity. Qed.
Lemma rsq_pos d : 0 <= rnd64 (rnd64 d * rnd64 d).
Proof. apply rnd64_pos, Rle_0_sqr. Qed.
Lemma sq64_far a b c d : / 2 ^ 500 <= Rabs (a - c) \/ / 2 ^ 500 <= Rabs (b - d) -> 0 < sq64 [a; b] [c; d].
Proof.
  intros H. rewrite sq64_pair. assert (0 < / 2 ^ 1000) as P by (apply Rinv_0_lt_compat, pow_lt; lra).
  eapply Rlt_le_trans; [exact P|]. pose proof (rsq_pos (a - c)) as A. pose proof (rsq_pos (b - d)) as B.
  assert (0 <= rnd64 (0 + rnd64 (rnd64 (a - c) * rnd64 (a - c)))) as A' by (apply rnd64_pos; lra).
  destruct H as [H|H]; apply far_square in H.
  - assert (/ 2 ^ 1000 <= rnd64 (0 + rnd64 (rnd64 (a - c) * rnd64 (a - c)))) as C by (rewrite <- bpow1000 at 1; apply rnd64_le; lra).
    rewrite <- bpow1000 at 1. apply rnd64_le. lra.
  - rewrite <- bpow1000 at 1. apply rnd64_le. lra.
Qed.
Lemma closest64_exact q p v : (v < length p)%nat -> nth v p [] = q -> (forall x, In x p -> length x = 2%nat) ->
  (forall w, (w < length p)%nat -> w <> v -> exists j, (j < 2)%nat /\ / 2 ^ 500 <= Rabs (coord p w j - nth j q 0)) -> closest_node64 q p = v.
Proof.
  intros Lv E HP FAR. unfold closest_node64. set (ds := map (fun r => sq64 r q) p).
  assert (length ds = length p) as LD by apply map_length.
  assert (ds <> []) as ND by (intros Z; rewrite Z in LD; cbn in LD; lia).
  destruct (argmin_spec ds ND) as [A [B C]]. rewrite LD in A, B.
  assert (forall k, (k < length p)%nat -> nth k ds 0 = sq64 (nth k p []) q) as G by (intros k Hk; unfold ds; rewrite (nth_map' (A:=list R) (B:=R) _ _ _ 0 []) by exact Hk; reflexivity).
  pose proof (HP (nth v p []) (nth_In p [] Lv)) as L2. rewrite E in L2. destruct q as [|x [|y [|]]]; try discriminate.
  destruct (Nat.eq_dec (argmin ds) v) as [EQ|NE]; [exact EQ|exfalso].
  specialize (B v Lv). rewrite !G in B by assumption. rewrite E, sq64_self in B.
  pose proof (HP (nth (argmin ds) p []) (nth_In p [] A)) as LW. destruct (FAR _ A NE) as [j [Lj F]]. unfold coord in F.
  destruct (nth (argmin ds) p []) as [|a [|b [|]]]; try discriminate. assert (0 < sq64 [a; b] [x; y]); [|lra].
  apply sq64_far. destruct j as [|[|]]; [left; exact F|right; exact F|lia].
Qed.

Lemma laplacian2_64_used arr uniq p t k tol pfix p' t' : triangles t -> (forall v, (v < length p)%nat -> exists r, In r t /\ In v r) ->
  laplacian2_64 arr uniq p t k tol pfix = Ok (p', t') ->
  t' = t /\ p' = lap_loop64 arr k t (get_boundary_vertices uniq 2 t ++ map (fun q => closest_node64 q p) (asked pfix)) (get_edges 2 t) tol (edge_lens64 (get_edges 2 t) p) p.
Proof.
  intros HT HU. unfold laplacian2_64. destruct (existsb _ (seq 0 (length p))) eqn:E.
  - apply (unused_test p t HT) in E. destruct E as [v [L H]]. destruct (HU v L) as [r [Hr Hv]]. destruct (H r Hr Hv).
  - fold (asked pfix). destruct (get_boundary_vertices uniq 2 t), pfix as [[|]|], k; intros H; inversion H; subst; split; reflexivity.
Qed.

(** In whatever order the neighbours are added: the result is near the result q of k exact sweeps, k at most max_iter, which keep a set F of vertices;
    F has the boundary and every requested point that is a vertex (the others being at least 2^-500 away), and nothing else without requests.
    The kept vertices are exactly where they were.  d: no vertex in more than d triangles; M: no coordinate larger in size. *)
Theorem C127_near_exact_sweeps : forall arr uniq p t max_iter tol pfix p' t' d M, (forall l, Permutation (arr l) l) -> uniq_ok uniq ->
  (forall r, In r t -> simplex 3 r) -> (forall r v, In r t -> In v r -> (v < length p)%nat) -> (forall x, In x p -> length x = 2%nat) ->
  (forall v, (entities_on [v] t <= d)%nat) -> (forall v j, (v < length p)%nat -> (j < 2)%nat -> Rabs (coord p v j) <= M) -> 0 <= M ->
  laplacian2_64 arr uniq p t max_iter tol pfix = Ok (p', t') ->
  t' = t /\ length p' = length p /\ exists k q (F : nat -> Prop), (k <= max_iter)%nat /\
    (forall v, on_boundary t v -> F v) /\ (pfix = None -> forall v, F v -> on_boundary t v) /\
    (forall v, (v < length p)%nat -> In (nth v p []) (asked pfix) ->
       (forall w, (w < length p)%nat -> w <> v -> exists j, (j < 2)%nat /\ / 2 ^ 500 <= Rabs (coord p w j - coord p v j)) -> F v) /\
    steps t F k p q /\ (forall v, (v < length p)%nat -> F v -> nth v p' [] = nth v p []) /\
    apart_at_most ((1 + / 2 ^ 53) ^ ((2 * d + 1) * k) * (M + INR k * / 2 ^ 1074) - M) p' q.
Proof.
  intros arr uniq p t k0 tol pfix p' t' d M HA HU HT HV HP HD BM MP H.
  assert (u = / 2 ^ 53) as EU by (unfold u; f_equal; ring).
  assert (2 * eta = / 2 ^ 1074) as EE. { unfold eta. change 1075%nat with (S 1074). rewrite <- tech_pow_Rmult, Rinv_mult, <- Rmult_assoc, Rinv_r by lra. lra. }
  set (fx := get_boundary_vertices uniq 2 t ++ map (fun q => closest_node64 q p) (asked pfix)).
  assert (forall v, on_boundary t v -> In v fx) as F1.
  { intros v Hv. unfold fx. apply in_or_app. left. apply (proj2 (boundary_vertices_spec uniq 2 t (or_introl eq_refl) HU HT)). exact Hv. }
  assert (pfix = None -> forall v, In v fx -> on_boundary t v) as F2.
  { intros -> v Hv. unfold fx in Hv. cbn [asked map] in Hv. rewrite app_nil_r in Hv. apply (proj2 (boundary_vertices_spec uniq 2 t (or_introl eq_refl) HU HT)) in Hv. exact Hv. }
  assert (forall v, (v < length p)%nat -> In (nth v p []) (asked pfix) ->
       (forall w, (w < length p)%nat -> w <> v -> exists j, (j < 2)%nat /\ / 2 ^ 500 <= Rabs (coord p w j - coord p v j)) -> In v fx) as F3.
  { intros v Lv Iv FAR. unfold fx. apply in_or_app. right. apply in_map_iff. exists (nth v p []). split; [|exact Iv]. apply closest64_exact; auto. }
  destruct (used_dec t (length p)) as [[v0 [L0 U]]|U].
  - unfold laplacian2_64 in H. rewrite (proj2 (unused_test p t HT)) in H by eauto. injection H as <- <-. split; [reflexivity|]. split; [reflexivity|].
    exists 0%nat, p, (fun v => In v fx). split; [lia|]. split; [exact F1|]. split; [exact F2|]. split; [exact F3|]. split; [apply steps_O|]. split; [reflexivity|].
    intros v j Lv Lj. rewrite Rminus_diag_eq, Rabs_R0 by reflexivity. rewrite Nat.mul_0_r. cbn [pow INR]. lra.
  - destruct (laplacian2_64_used arr uniq p t k0 tol pfix p' t' HT U H) as [-> ->]. split; [reflexivity|]. fold fx.
    destruct (loop64_near t fx arr (length p) d HT HV U HA HD (fun v => In v fx) (get_edges 2 t) tol (fun v => iff_refl _) k0 (edge_lens64 (get_edges 2 t) p) p p 0 M
      eq_refl eq_refl ltac:(lra) MP BM) as [k [q [K1 [_ [K3 [K4 [K5 K6]]]]]]]; [| |exact HP|].
    + intros v j Lv Lj. rewrite Rminus_diag_eq, Rabs_R0 by reflexivity. lra.
    + reflexivity.
    + split; [exact K4|]. exists k, q, (fun v => In v fx). split; [exact K1|]. split; [exact F1|]. split; [exact F2|]. split; [exact F3|]. split; [exact K3|]. split; [exact K6|].
      rewrite EU in K5. rewrite <- pow_mult in K5. replace (S (2 * d) * k)%nat with ((2 * d + 1) * k)%nat in K5 by lia. rewrite Rplus_0_r in K5.
      replace (2 * INR k * eta) with (INR k * / 2 ^ 1074) in K5 by (rewrite <- EE; ring). exact K5.
Qed.
Print Assumptions C127_near_exact_sweeps.

(** so every vertex stays in the half-planes the mesh lies in, up to that error *)
Theorem C127_box : forall arr uniq p t max_iter tol pfix p' t' d M lo hi j, (forall l, Permutation (arr l) l) -> uniq_ok uniq ->
  (forall r, In r t -> simplex 3 r) -> (forall r v, In r t -> In v r -> (v < length p)%nat) -> (forall x, In x p -> length x = 2%nat) ->
  (forall v, (entities_on [v] t <= d)%nat) -> (forall v j, (v < length p)%nat -> (j < 2)%nat -> Rabs (coord p v j) <= M) -> 0 <= M -> (j < 2)%nat ->
  (forall v, (v < length p)%nat -> lo <= coord p v j <= hi) ->
  laplacian2_64 arr uniq p t max_iter tol pfix = Ok (p', t') ->
  let E := (1 + / 2 ^ 53) ^ ((2 * d + 1) * max_iter) * (M + INR max_iter * / 2 ^ 1074) - M in
  forall v, (v < length p)%nat -> lo - E <= coord p' v j <= hi + E.
Proof.
  intros arr uniq p t k0 tol pfix p' t' d M lo hi j HA HU HT HV HP HD BM MP Lj BX H E v Lv.
  destruct (C127_near_exact_sweeps arr uniq p t k0 tol pfix p' t' d M HA HU HT HV HP HD BM MP H) as [_ [LL [k [q [F [K1 [_ [_ [_ [K3 [_ K5]]]]]]]]]]].
  specialize (K5 v j ltac:(lia) Lj). apply Rabs_le_iff in K5.
  assert (lo <= coord q v j <= hi) as Q.
  { assert (forall v, F v \/ ~ F v) as DEC by (intros; apply Classical_Prop.classic).
    destruct j as [|[|j]]; [| |lia].
    - pose proof (steps_halfplane t F k p q 1 0 hi DEC K3 ltac:(intros w Lw; pose proof (BX w Lw); lra) v Lv).
      pose proof (steps_halfplane t F k p q (-1) 0 (- lo) DEC K3 ltac:(intros w Lw; pose proof (BX w Lw); lra) v Lv). lra.
    - pose proof (steps_halfplane t F k p q 0 1 hi DEC K3 ltac:(intros w Lw; pose proof (BX w Lw); lra) v Lv).
      pose proof (steps_halfplane t F k p q 0 (-1) (- lo) DEC K3 ltac:(intros w Lw; pose proof (BX w Lw); lra) v Lv). lra. }
  assert ((1 + / 2 ^ 53) ^ ((2 * d + 1) * k) * (M + INR k * / 2 ^ 1074) - M <= E) as EE.
  { unfold E. apply Rplus_le_compat_r. assert (0 < / 2 ^ 53) by (apply Rinv_0_lt_compat, pow_lt; lra). assert (0 < / 2 ^ 1074) by (apply Rinv_0_lt_compat, pow_lt; lra).
    apply Rmult_le_compat.
    - apply pow_le. lra.
    - pose proof (pos_INR k). pose proof (Rmult_le_pos (INR k) (/ 2 ^ 1074)). lra.
    - apply Rle_pow; [lra|]. apply Nat.mul_le_mono_l. exact K1.
    - apply Rplus_le_compat_l. apply Rmult_le_compat_r; [lra|]. apply le_INR, K1. }
  lra.
Qed.
Print Assumptions C127_box.

(** ---- the error is there: a vertex can leave the convex hull ---- *)
Lemma rnd64_at x e k : (0 <= e)%Z -> bpow radix2 (52 + e) <= x < bpow radix2 (53 + e) -> ZnearestE (x * bpow radix2 (- e)) = k -> rnd64 x = IZR k * bpow radix2 e.
Proof.
  intros E [A B] K. unfold rnd64, round, scaled_mantissa.
  assert (cexp radix2 (FLT_exp (-1074) 53) x = e) as ->.
  { unfold cexp. rewrite (mag_unique_pos radix2 x (53 + e)); [unfold FLT_exp; lia|]. split; [|exact B]. replace (53 + e - 1)%Z with (52 + e)%Z by lia. exact A. }
  rewrite K. reflexivity.
Qed.
Lemma nearest_tie_even z : Z.even z = true -> ZnearestE (IZR z + / 2) = z.
Proof.
  intros H. unfold Znearest. assert (Zfloor (IZR z + / 2) = z) as ->. { apply Zfloor_imp. rewrite plus_IZR. lra. }
  replace (IZR z + / 2 - IZR z) with (/ 2) by ring. rewrite Rcompare_Eq by reflexivity. rewrite H. reflexivity.
Qed.
Lemma nearest_tie_odd z : Z.even z = false -> ZnearestE (IZR z + / 2) = (z + 1)%Z.
Proof.
  intros H. unfold Znearest. assert (Zfloor (IZR z + / 2) = z) as F. { apply Zfloor_imp. rewrite plus_IZR. lra. } rewrite F.
  replace (IZR z + / 2 - IZR z) with (/ 2) by ring. rewrite Rcompare_Eq by reflexivity. rewrite H. cbn [negb]. apply Zceil_imp. rewrite plus_IZR. replace (z + 1 - 1)%Z with z by lia. lra.
Qed.
Definition mm : R := 8106479329266893.
Definition tent_t : list (list nat) := [[0;1;2];[0;2;3];[0;3;1]]%nat.
Definition tent (x : R) : list (list R) := [[x; 0]; [mm + 1; 1]; [mm - 1; 0]; [mm + 1; -1]].
Lemma sum_tent : sum64 [mm + 1; mm - 1; mm - 1; mm + 1; mm + 1; mm + 1] = 48638875975601368.
Proof.
  unfold sum64, mm. cbn [fold_left].
  replace (rnd64 (0 + (8106479329266893 + 1))) with 8106479329266894.
  2:{ rewrite (rnd64_at _ 0 8106479329266894); [cbn; lra|lia|cbn; lra|]. apply Znearest_imp. cbn. rewrite Rabs_pos_eq; lra. }
  replace (rnd64 (8106479329266894 + (8106479329266893 - 1))) with 16212958658533786.
  2:{ rewrite (rnd64_at _ 1 8106479329266893); [cbn; lra|lia|cbn; lra|]. apply Znearest_imp. cbn. rewrite Rabs_pos_eq; lra. }
  replace (rnd64 (16212958658533786 + (8106479329266893 - 1))) with 24319437987800680.
  2:{ rewrite (rnd64_at _ 2 6079859496950170); [cbn; lra|lia|cbn; lra|]. replace ((16212958658533786 + (8106479329266893 - 1)) * bpow radix2 (- (2))) with (IZR 6079859496950169 + / 2) by (cbn; lra).
      apply nearest_tie_odd. reflexivity. }
  replace (rnd64 (24319437987800680 + (8106479329266893 + 1))) with 32425917317067576.
  2:{ rewrite (rnd64_at _ 2 8106479329266894); [cbn; lra|lia|cbn; lra|]. replace ((24319437987800680 + (8106479329266893 + 1)) * bpow radix2 (- (2))) with (IZR 8106479329266893 + / 2) by (cbn; lra).
      apply nearest_tie_odd. reflexivity. }
  replace (rnd64 (32425917317067576 + (8106479329266893 + 1))) with 40532396646334472.
  2:{ rewrite (rnd64_at _ 3 5066549580791809); [cbn; lra|lia|cbn; lra|]. apply Znearest_imp. cbn. rewrite Rabs_left1; lra. }
  rewrite (rnd64_at _ 3 6079859496950171); [cbn; lra|lia|cbn; lra|]. apply Znearest_imp. cbn. rewrite Rabs_left1; lra.
Qed.
Lemma id64_small z : (Z.abs z < 2 ^ 52)%Z -> rnd64 (IZR z) = IZR z.
Proof.
  intros H. unfold rnd64. apply round_generic; [typeclasses eauto|]. apply generic_format_FLT. exists (Float radix2 z 0).
  - unfold F2R. cbn [Fnum Fexp]. change (bpow radix2 0) with 1. ring.
  - cbn [Fnum]. change (Zpower radix2 53) with (2 ^ 53)%Z. lia.
  - cbn [Fexp]. lia.
Qed.
Lemma sweep_tent x : lap_sweep64 (fun l => l) tent_t [1; 2; 3]%nat (tent x) = tent (mm + 2).
Proof.
  unfold lap_sweep64. change (seq 0 (length (tent x))) with [0; 1; 2; 3]%nat. cbn [map].
  change (nbrs tent_t 0) with [1; 2; 2; 3; 3; 1]%nat. change (existsb (Nat.eqb 0) [1; 2; 3]%nat) with false.
  change (existsb (Nat.eqb 1) [1; 2; 3]%nat) with true. change (existsb (Nat.eqb 2) [1; 2; 3]%nat) with true. change (existsb (Nat.eqb 3) [1; 2; 3]%nat) with true. cbv iota.
  unfold tent. cbn [map nth length]. rewrite sum_tent.
  assert (INR 6 = 6) as -> by (rewrite INR_IZR_INZ; reflexivity).
  assert (rnd64 (48638875975601368 / 6) = mm + 2) as ->.
  { unfold mm. rewrite (rnd64_at _ 0 8106479329266895); [cbn; lra|lia|cbn; lra|]. apply Znearest_imp. cbn. rewrite Rabs_left1; lra. }
  assert (sum64 [1; 0; 0; -1; -1; 1] = 0) as ->.
  { unfold sum64. cbn [fold_left]. replace (0 + 1) with 1 by ring. rewrite (id64_small 1) by lia. replace (1 + 0) with 1 by ring. rewrite !(id64_small 1) by lia.
    replace (1 + 0) with 1 by ring. rewrite (id64_small 1) by lia. replace (1 + -1) with 0 by ring. rewrite rnd64_0. replace (0 + -1) with (-1) by ring. rewrite (id64_small (-1)) by lia.
    replace (-1 + 1) with 0 by ring. apply rnd64_0. }
  replace (0 / 6) with 0 by field. rewrite rnd64_0. reflexivity.
Qed.
Lemma loop_tent k es tol L x : lap_loop64 (fun l => l) (S k) tent_t [1; 2; 3]%nat es tol L (tent x) = tent (mm + 2).
Proof.
  revert L x. induction k as [|k IH]; intros L x.
  - cbn [lap_loop64]. rewrite sweep_tent. destruct (Rltb _ tol); reflexivity.
  - remember (S k) as k1. cbn [lap_loop64]. rewrite sweep_tent. destruct (Rltb _ tol); [reflexivity|]. subst k1. apply IH.
Qed.
(** three well-shaped (counterclockwise) triangles around vertex 0; after any number of sweeps it lies beyond every one of the original vertices *)
Theorem C127_leaves_the_hull_refuted : forall max_iter tol, (0 < max_iter)%nat -> exists p t p',
  (forall r, In r t -> simplex 3 r) /\ (forall v, (v < 4)%nat -> exists r, In r t /\ In v r) /\
  (forall r, In r t -> 0 < area p r) /\
  (forall v j, (v < length p)%nat -> (j < 2)%nat -> rnd64 (coord p v j) = coord p v j) /\
  laplacian2_64 (fun l => l) uniqR0 p t max_iter tol None = Ok (p', t) /\
  (forall v, (v < length p)%nat -> coord p v 0 < coord p' 0 0).
Proof.
  intros k tol K. exists (tent mm), tent_t, (tent (mm + 2)). split; [|split; [|split; [|split; [|split]]]].
  - intros r [<- | [<- | [<- | []]]]; (split; [reflexivity|repeat (constructor; [cbn; lia|]); constructor]).
  - intros v Lv. destruct v as [|[|[|[|]]]]; [exists [0;1;2]%nat|exists [0;1;2]%nat|exists [0;1;2]%nat|exists [0;2;3]%nat|lia]; cbn; tauto.
  - intros r [<- | [<- | [<- | []]]]; unfold area, tent, mm; cbn; lra.
  - intros v j Lv Lj. assert (forall z, (2 ^ 52 <= z < 2 ^ 53)%Z -> rnd64 (IZR z) = IZR z) as BIG.
    { intros z Z. rewrite (rnd64_at (IZR z) 0 z); [cbn; lra|lia| |rewrite Z.opp_0; change (bpow radix2 0) with 1; rewrite Rmult_1_r; apply Znearest_imp; rewrite Rminus_diag_eq, Rabs_R0 by reflexivity; lra].
      split; [change (bpow radix2 (52 + 0)) with (IZR (2 ^ 52)); apply IZR_le; lia|change (bpow radix2 (53 + 0)) with (IZR (2 ^ 53)); apply IZR_lt; lia]. }
    unfold coord, tent, mm. destruct v as [|[|[|[|v]]]]; [..|cbn in Lv; lia]; destruct j as [|[|]]; try lia; cbn [nth];
      first [apply rnd64_0 | apply (id64_small 1); lia | apply (id64_small (-1)); lia
            | replace (8106479329266893 + 1) with 8106479329266894 by lra; apply (BIG 8106479329266894%Z); lia
            | replace (8106479329266893 - 1) with 8106479329266892 by lra; apply (BIG 8106479329266892%Z); lia
            | apply (BIG 8106479329266893%Z); lia].
  - destruct k as [|k]; [lia|]. unfold laplacian2_64.
    change (get_boundary_vertices uniqR0 2 tent_t) with [1; 2; 3]%nat. change (existsb (fun v => (length (nbrs tent_t v) =? 0)%nat) (seq 0 (length (tent mm)))) with false.
    cbn [map app]. rewrite loop_tent. reflexivity.
  - intros v Lv. unfold coord, tent, mm. destruct v as [|[|[|[|v]]]]; [..|cbn in Lv; lia]; cbn [nth]; lra.
Qed.
Print Assumptions C127_leaves_the_hull_refuted.

(** the hypotheses of the bounds are met by that mesh: with d = 3 and 20 sweeps the error is below 10^-13 of the size of the coordinates *)
Example C127_case : (forall v, (entities_on [v] tent_t <= 3)%nat) /\ uniq_ok uniqR0 /\
  (1 + / 2 ^ 53) ^ ((2 * 3 + 1) * 20) * (mm + INR 20 * / 2 ^ 1074) - mm <= / 10 ^ 13 * mm.
Proof.
  split; [|split; [apply uniqR0_ok|]].
  - intros v. unfold entities_on. eapply Nat.le_trans; [apply filter_length_le|]. cbn. lia.
  - assert (INR 20 * / 2 ^ 1074 <= 1) as A.
    { assert (INR 20 = 20) as -> by (rewrite INR_IZR_INZ; reflexivity). assert (/ 2 ^ 1074 <= / 2 ^ 5) by (apply Rinv_le_contravar; [apply pow_lt; lra|apply Rle_pow; [lra|lia]]).
      assert (/ 2 ^ 5 = / 32) by (f_equal; ring). lra. }
    assert ((1 + / 2 ^ 53) ^ ((2 * 3 + 1) * 20) <= 1 + 141 * / 2 ^ 53) as B.
    { assert (forall n, (n <= 140)%nat -> (1 + / 2 ^ 53) ^ n <= 1 + (INR n + INR n * INR n * / 2 ^ 53) * / 2 ^ 53) as X.
      { assert (/ 2 ^ 53 = / 9007199254740992) as -> by (f_equal; ring). induction n as [|n IH]; intros Hn; [cbn; lra|]. specialize (IH ltac:(lia)). rewrite S_INR. cbn [pow].
        apply le_INR in Hn. rewrite S_INR, (INR_IZR_INZ 140) in Hn. cbn in Hn. pose proof (pos_INR n). set (I := INR n) in *. set (g := (1 + / 9007199254740992) ^ n) in *.
        assert ((1 + / 9007199254740992) * g <= (1 + / 9007199254740992) * (1 + (I + I * I * / 9007199254740992) * / 9007199254740992)) by (apply Rmult_le_compat_l; lra).
        assert (I * I <= 19600) by nra. assert (0 <= I * I) by nra. lra. }
      specialize (X 140%nat ltac:(lia)). change ((2 * 3 + 1) * 20)%nat with 140%nat. eapply Rle_trans; [exact X|]. rewrite (INR_IZR_INZ 140). cbn.
      assert (/ 2 ^ 53 = / 9007199254740992) as E by (f_equal; ring). cbn in E. rewrite E. lra. }
    assert (/ 2 ^ 53 = / 9007199254740992) as E53 by (f_equal; ring). rewrite E53 in *.
    assert (0 <= INR 20 * / 2 ^ 1074) by (apply Rmult_le_pos; [apply pos_INR|left; apply Rinv_0_lt_compat, pow_lt; lra]).
    set (g := (1 + / 9007199254740992) ^ ((2 * 3 + 1) * 20)) in *. set (w := INR 20 * / 2 ^ 1074) in *.
    assert (g * (mm + w) <= (1 + 141 * / 9007199254740992) * (mm + 1)) as C. { apply Rmult_le_compat; [|unfold mm; lra|exact B|lra]. unfold g. apply pow_le. lra. }
    assert (/ 10 ^ 13 = / 10000000000000) as -> by (f_equal; ring). unfold mm in *. lra.
Qed.

(** ---- short edges are taken to be 2^-52 long: a mesh whose edges are all shorter than that after a sweep is not swept again ---- *)
Lemma rnd_pow2 n : (n <= 1000)%nat -> rnd64 (/ 2 ^ n) = / 2 ^ n.
Proof.
  intros Hn. assert (E : / 2 ^ n = bpow radix2 (- Z.of_nat n)).
  { rewrite bpow_opp. f_equal. rewrite <- (IZR_Zpower radix2 (Z.of_nat n)) by lia. rewrite pow_IZR. reflexivity. }
  rewrite E. unfold rnd64. apply round_generic; [typeclasses eauto|]. apply generic_format_bpow. unfold FLT_exp. lia.
Qed.
Lemma rnd_abs_le x n : (n <= 1000)%nat -> Rabs x <= / 2 ^ n -> Rabs (rnd64 x) <= / 2 ^ n.
Proof.
  intros Hn H. apply Rabs_le_inv in H. apply Rabs_le. split.
  - rewrite <- (rnd_pow2 n Hn), <- rnd64_opp. apply rnd64_le, H.
  - rewrite <- (rnd_pow2 n Hn). apply rnd64_le, H.
Qed.
Lemma sq_small x n : (n <= 500)%nat -> Rabs x <= / 2 ^ n -> rnd64 (x * x) <= / 2 ^ (2 * n).
Proof.
  intros Hn H. rewrite <- (rnd_pow2 (2 * n)) by lia. apply rnd64_le. replace (2 ^ (2 * n)) with (2 ^ n * 2 ^ n) by (rewrite <- pow_add; f_equal; lia).
  rewrite Rinv_mult. apply Rle_trans with (Rabs (x * x)); [apply Rle_abs|]. rewrite Rabs_mult. apply Rmult_le_compat; try apply Rabs_pos; exact H.
Qed.
Lemma half_pow n : / 2 ^ S n + / 2 ^ S n = / 2 ^ n.
Proof. cbn [pow]. rewrite Rinv_mult. lra. Qed.
Lemma short_len64 p q : length p = 2%nat -> length q = 2%nat -> (forall j, (j < 2)%nat -> Rabs (nth j p 0 - nth j q 0) <= / 2 ^ 54) -> rnd64 (sqrt (sq64 p q)) < eps52.
Proof.
  destruct p as [|a [|b [|]]]; try discriminate. destruct q as [|c [|d [|]]]; try discriminate. intros _ _ H.
  pose proof (H 0%nat ltac:(lia)) as H0. pose proof (H 1%nat ltac:(lia)) as H1. cbn [nth] in H0, H1. rewrite sq64_pair.
  apply rnd_abs_le in H0; [|lia]. apply rnd_abs_le in H1; [|lia]. apply sq_small in H0; [|lia]. apply sq_small in H1; [|lia]. change (2 * 54)%nat with 108%nat in *.
  set (x := rnd64 (rnd64 (a - c) * rnd64 (a - c))) in *. set (y := rnd64 (rnd64 (b - d) * rnd64 (b - d))) in *.
  assert (X : rnd64 (0 + x) <= / 2 ^ 108) by (rewrite <- (rnd_pow2 108) by lia; apply rnd64_le; lra).
  assert (S0 : rnd64 (rnd64 (0 + x) + y) <= / 2 ^ 106).
  { rewrite <- (rnd_pow2 106) by lia. apply rnd64_le. pose proof (half_pow 107) as A. pose proof (half_pow 106) as B. change (S 107) with 108%nat in A. change (S 106) with 107%nat in B.
    assert (C : 0 < / 2 ^ 107) by (apply Rinv_0_lt_compat, pow_lt; lra). set (u := / 2 ^ 107) in *. set (v := / 2 ^ 108) in *. set (w := / 2 ^ 106) in *. clearbody u v w. lra. }
  apply Rle_lt_trans with (/ 2 ^ 53).
  - rewrite <- (rnd_pow2 53) by lia. apply rnd64_le. rewrite <- (sqrt_square (/ 2 ^ 53)) by (left; apply Rinv_0_lt_compat, pow_lt; lra). apply sqrt_le_1_alt.
    rewrite <- Rinv_mult, <- pow_add. exact S0.
  - unfold eps52. pose proof (half_pow 52) as A. change (S 52) with 53%nat in A. assert (C : 0 < / 2 ^ 53) by (apply Rinv_0_lt_compat, pow_lt; lra). set (u := / 2 ^ 53) in *. set (v := / 2 ^ 52) in *. clearbody u v. lra.
Qed.
Lemma lens_floor es p : forall l, In l (edge_lens64 es p) -> eps52 <= l.
Proof.
  intros l H. apply in_map_iff in H. destruct H as [e [<- _]]. cbv zeta. destruct (Rltb _ eps52) eqn:E; [lra|]. apply Rltb_false in E. lra.
Qed.
Lemma lens_short es p : (forall e, In e es -> exists a b, e = [a; b] /\ rnd64 (sqrt (sq64 (nth a p []) (nth b p []))) < eps52) -> forall l, In l (edge_lens64 es p) -> l = eps52.
Proof.
  intros HE l H. apply in_map_iff in H. destruct H as [e [<- He]]. destruct (HE e He) as (a & b & -> & L). cbn [nth]. cbv zeta. rewrite (proj2 (Rltb_true _ eps52)) by exact L. reflexivity.
Qed.
Lemma no_growth L' L : (forall l, In l L' -> l = eps52) -> (forall l, In l L -> eps52 <= l) -> forall x, In x (map2 (fun ln l => rnd64 (rnd64 (ln - l) / ln)) L' L) -> x <= 0.
Proof.
  revert L. induction L' as [|a L' IH]; intros [|b L] H1 H2 x Hx; try destruct Hx. 
  - subst x. rewrite (H1 a (or_introl eq_refl)). pose proof (H2 b (or_introl eq_refl)) as B. assert (P : 0 < / eps52) by (apply Rinv_0_lt_compat; unfold eps52; apply Rinv_0_lt_compat, pow_lt; lra).
    assert (N : rnd64 (eps52 - b) <= 0) by (rewrite <- rnd64_0; apply rnd64_le; lra).
    apply Rle_trans with (rnd64 0); [|rewrite rnd64_0; apply Rle_refl]. apply rnd64_le. unfold Rdiv. apply Rle_trans with (0 * / eps52); [|lra].
    apply Rmult_le_compat_r; [left; exact P|exact N].
  - apply (IH L); [intros l Hl; apply H1; right; exact Hl|intros l Hl; apply H2; right; exact Hl|exact H].
Qed.
Theorem C127_short_edges_stop : forall arr uniq p t tol pfix p1 k, (forall r, In r t -> simplex 3 r) -> (forall r v, In r t -> In v r -> (v < length p)%nat) ->
  (forall x, In x p -> length x = 2%nat) -> 0 < tol ->
  laplacian2_64 arr uniq p t 1 tol pfix = Ok (p1, t) ->
  (forall r a b j, In r t -> edge_of r a b -> (j < 2)%nat -> Rabs (coord p1 a j - coord p1 b j) <= / 2 ^ 54) ->
  laplacian2_64 arr uniq p t (S k) tol pfix = Ok (p1, t).
Proof.
  intros arr uniq p t tol pfix p1 k HT HV HP TP H1 SH. revert H1. unfold laplacian2_64.
  destruct (existsb _ (seq 0 (length p))); [exact (fun H => H)|].
  set (fx := get_boundary_vertices uniq 2 t ++ _).
  assert (G : lap_loop64 arr 1 t fx (get_edges 2 t) tol (edge_lens64 (get_edges 2 t) p) p = p1 ->
    lap_loop64 arr (S k) t fx (get_edges 2 t) tol (edge_lens64 (get_edges 2 t) p) p = p1).
  { cbn [lap_loop64]. set (q := lap_sweep64 arr t fx p). intros E. assert (EQ : q = p1) by (destruct (Rltb _ tol); exact E). rewrite EQ. clear E.
    assert (HQ : forall x, In x p1 -> length x = 2%nat).
    { rewrite <- EQ. intros x Hx. apply In_nth with (d := []) in Hx. destruct Hx as (v & Lv & <-). unfold q in Lv |- *. rewrite sweep64_length in Lv. rewrite sweep64_nth by exact Lv.
      destruct (existsb (Nat.eqb v) fx); [apply HP, nth_In, Lv|reflexivity]. }
    assert (LQ : length p1 = length p) by (rewrite <- EQ; apply sweep64_length).
    rewrite (proj2 (Rltb_true _ tol)); [reflexivity|]. apply Rle_lt_trans with 0; [|exact TP].
    set (ms := map2 _ _ _). assert (ND : ms = [] \/ ms <> []) by (destruct ms; [left; reflexivity|right; discriminate]). destruct ND as [-> | ND]; [apply Rle_refl|].
    apply (no_growth (edge_lens64 (get_edges 2 t) p1) (edge_lens64 (get_edges 2 t) p)); [|apply lens_floor|apply max_list_in, ND].
    apply lens_short. intros e He. destruct (proj1 (covers_spec 2 (edge_ix 2) (get_edges 2 t) t (covers_edge 2 (or_introl eq_refl)) (fun r Hr => proj1 (HT r Hr)) (get_edges_in 2 t)) e He) as (r & a & b & Hr & ED & ->).
    exists a, b. split; [reflexivity|]. destruct ED as (i & j & Li & Lj & N & <- & <-). apply short_len64.
    - apply HQ, nth_In. rewrite LQ. apply (HV r); [exact Hr|apply nth_In, Li].
    - apply HQ, nth_In. rewrite LQ. apply (HV r); [exact Hr|apply nth_In, Lj].
    - intros m Lm. apply (SH r); [exact Hr|exists i, j; repeat split; assumption|exact Lm]. }
  destruct (get_boundary_vertices uniq 2 t), pfix as [[|]|]; intros H; try discriminate H; inversion H as [H']; rewrite H'; f_equal; f_equal; exact (G H').
Qed.
Print Assumptions C127_short_edges_stop.
