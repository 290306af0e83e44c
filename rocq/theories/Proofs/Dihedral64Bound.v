(** Rounding error of the dihedral cosine. *)
From Coq Require Import List ZArith Reals Bool Lia Lra.
From Flocq Require Import Core.
From Verif Require Import Model.Base Model.FastHJ Model.SDF Model.Round Model.Laplace64 Model.Quality64 Model.Dihedral Model.Dihedral64 Spec.Geom Spec.Linear Spec.Dihedral
  Proofs.ListAux Proofs.SnapProofs Proofs.RoundProofs Proofs.Euclid Proofs.Quality64Proofs Proofs.DihedralProofs.
Import ListNotations.
Local Open Scope R_scope.

Lemma er x : Rabs (rnd64 x - x) <= u * Rabs x + u / 128.
Proof. pose proof (err x) as E. pose proof eta_bound as [_ B]. assert (/ 1152921504606846976 = u / 128) as Q by (unfold u; field). lra. Qed.
Lemma er1 x m : Rabs x <= m -> Rabs (rnd64 x - x) <= u * m + u / 128.
Proof. intros H. pose proof (er x) as E. assert (u * Rabs x <= u * m) by (apply Rmult_le_compat_l; [unfold u; lra|exact H]). lra. Qed.

Lemma unit_comp d L L' : / 2 ^ 100 <= L -> Rabs d <= L -> Rabs (L' - L) <= 33 * u * L -> Rabs (rnd64 (rnd64 d / L') - d / L) <= 40 * u /\ Rabs (d / L) <= 1.
Proof.
  intros HL Hd HL'. assert (P0 : 0 < / 2 ^ 100) by (apply Rinv_0_lt_compat, pow_lt; lra). assert (LP : 0 < L) by lra.
  assert (B : Rabs (d / L) <= 1). { unfold Rdiv. rewrite Rabs_mult, (Rabs_right (/ L)) by (left; apply Rinv_0_lt_compat, LP). apply (Rmult_le_reg_r L _ _ LP). rewrite Rmult_assoc, Rinv_l, Rmult_1_r, Rmult_1_l by lra. exact Hd. }
  split; [|exact B]. pose proof (err d) as E. assert (ET : eta <= u * L).
  { apply Rle_trans with (u * / 2 ^ 100); [|apply Rmult_le_compat_l; [unfold u; lra|exact HL]]. unfold u, eta. replace 9007199254740992 with (2 ^ 53) by ring. rewrite <- Rinv_mult, <- pow_add. apply Rinv_le_contravar; [apply pow_lt; lra|apply Rle_pow; [lra|lia]]. }
  set (d' := rnd64 d) in *. assert (E' : Rabs (d' - d) <= 2 * u * L). { assert (u * Rabs d <= u * L) by (apply Rmult_le_compat_l; [unfold u; lra|exact Hd]). lra. }
  apply Rabs_le_inv in HL'. assert (LL : L * (1 - 33 * u) <= L') by lra. assert (L'P : 0 < L'). { eapply Rlt_le_trans; [|exact LL]. apply Rmult_lt_0_compat; [exact LP|unfold u; lra]. }
  assert (Q : Rabs (d' / L' - d / L) <= 36 * u).
  { replace (d' / L' - d / L) with (((d' - d) * L - d * (L' - L)) / (L * L')) by (field; lra). unfold Rdiv. rewrite Rabs_mult, (Rabs_right (/ (L * L'))) by (left; apply Rinv_0_lt_compat, Rmult_lt_0_compat; assumption).
    assert (T : Rabs ((d' - d) * L - d * (L' - L)) <= 35 * u * L * L).
    { eapply Rle_trans; [apply Rabs_triang|]. rewrite Rabs_Ropp, !Rabs_mult, (Rabs_right L) by lra.
      assert (Rabs (d' - d) * L <= 2 * u * L * L) by (apply Rmult_le_compat_r; lra). assert (Rabs d * Rabs (L' - L) <= L * (33 * u * L)) by (apply Rmult_le_compat; try apply Rabs_pos; [exact Hd|apply Rabs_le; lra]). lra. }
    apply (Rmult_le_reg_r (L * L')); [apply Rmult_lt_0_compat; assumption|]. rewrite Rmult_assoc, Rinv_l, Rmult_1_r by (apply Rgt_not_eq, Rmult_lt_0_compat; assumption).
    eapply Rle_trans; [exact T|]. replace (35 * u * L * L) with (L * (35 * u * L)) by ring. replace (36 * u * (L * L')) with (L * (36 * u * L')) by ring. apply Rmult_le_compat_l; [lra|].
    apply Rle_trans with (36 * u * (L * (1 - 33 * u))); [|apply Rmult_le_compat_l; [unfold u; lra|exact LL]]. replace (36 * u * (L * (1 - 33 * u))) with (L * (36 * u * (1 - 33 * u))) by ring. replace (35 * u * L) with (L * (35 * u)) by ring.
    apply Rmult_le_compat_l; [lra|unfold u; lra]. }
  assert (A : Rabs (d' / L') <= 1 + 36 * u). { pose proof (Rabs_triang (d / L) (d' / L' - d / L)) as T. replace (d / L + (d' / L' - d / L)) with (d' / L') in T by ring. lra. }
  pose proof (er1 _ _ A) as F. pose proof (Rabs_triang (rnd64 (d' / L') - d' / L') (d' / L' - d / L)) as T. replace (rnd64 (d' / L') - d' / L' + (d' / L' - d / L)) with (rnd64 (d' / L') - d / L) in T by ring.
  unfold u in *. lra.
Qed.
(** product of two numbers of size at most 1 *)
Lemma prod_err a A b B e : 0 <= e <= 1000 * u -> Rabs (a - A) <= e -> Rabs A <= 1 -> Rabs (b - B) <= e -> Rabs B <= 1 -> Rabs (rnd64 (a * b) - A * B) <= 2 * e + 2 * u /\ Rabs (A * B) <= 1.
Proof.
  intros He HA A1 HB B1. assert (AB : Rabs (A * B) <= 1). { rewrite Rabs_mult. replace 1 with (1 * 1) by ring. apply Rmult_le_compat; try apply Rabs_pos; assumption. }
  split; [|exact AB]. assert (D : Rabs (a * b - A * B) <= 2 * e + e * e).
  { replace (a * b - A * B) with ((a - A) * B + A * (b - B) + (a - A) * (b - B)) by ring. eapply Rle_trans; [apply Rabs_triang|]. pose proof (Rabs_triang ((a - A) * B) (A * (b - B))) as T. rewrite !Rabs_mult in *.
    assert (Rabs (a - A) * Rabs B <= e * 1) by (apply Rmult_le_compat; try apply Rabs_pos; assumption). assert (Rabs A * Rabs (b - B) <= 1 * e) by (apply Rmult_le_compat; try apply Rabs_pos; assumption).
    assert (Rabs (a - A) * Rabs (b - B) <= e * e) by (apply Rmult_le_compat; try apply Rabs_pos; assumption). lra. }
  assert (EE : e * e <= u / 4). { apply Rle_trans with (1000 * u * (1000 * u)); [apply Rmult_le_compat; lra|unfold u; lra]. }
  assert (M : Rabs (a * b) <= 1 + 1 / 4). { pose proof (Rabs_triang (A * B) (a * b - A * B)) as T. replace (A * B + (a * b - A * B)) with (a * b) in T by ring. unfold u in *. lra. }
  pose proof (er1 _ _ M) as F. pose proof (Rabs_triang (rnd64 (a * b) - a * b) (a * b - A * B)) as T. replace (rnd64 (a * b) - a * b + (a * b - A * B)) with (rnd64 (a * b) - A * B) in T by ring. unfold u in *. lra.
Qed.
Lemma add_err x X y Y k l m : Rabs (x - X) <= k -> Rabs (y - Y) <= l -> Rabs (X + Y) <= m -> k + l <= 1 / 4 -> m <= 4 -> Rabs (rnd64 (x + y) - (X + Y)) <= k + l + 5 * u.
Proof.
  intros Hx Hy HM K M. assert (D : Rabs (x + y - (X + Y)) <= k + l). { replace (x + y - (X + Y)) with ((x - X) + (y - Y)) by ring. pose proof (Rabs_triang (x - X) (y - Y)). lra. }
  assert (A : Rabs (x + y) <= 4 + 1 / 4). { pose proof (Rabs_triang (X + Y) (x + y - (X + Y))) as T. replace (X + Y + (x + y - (X + Y))) with (x + y) in T by ring. lra. }
  pose proof (er1 _ _ A) as F. pose proof (Rabs_triang (rnd64 (x + y) - (x + y)) (x + y - (X + Y))) as T. replace (rnd64 (x + y) - (x + y) + (x + y - (X + Y))) with (rnd64 (x + y) - (X + Y)) in T by ring. unfold u in *. lra.
Qed.
Lemma sub_err x X y Y k l m : Rabs (x - X) <= k -> Rabs (y - Y) <= l -> Rabs (X - Y) <= m -> k + l <= 1 / 4 -> m <= 4 -> Rabs (rnd64 (x - y) - (X - Y)) <= k + l + 5 * u.
Proof. intros Hx Hy HM K M. apply (add_err x X (- y) (- Y) k l m); try assumption. replace (- y - - Y) with (- (y - Y)) by ring. rewrite Rabs_Ropp. exact Hy. Qed.

Definition close3 (e : R) (a A : R * R * R) : Prop :=
  let '(a1, a2, a3) := a in let '(A1, A2, A3) := A in
  Rabs (a1 - A1) <= e /\ Rabs (a2 - A2) <= e /\ Rabs (a3 - A3) <= e /\ Rabs A1 <= 1 /\ Rabs A2 <= 1 /\ Rabs A3 <= 1.
Lemma dot_err a1 a2 a3 A1 A2 A3 b1 b2 b3 B1 B2 B3 : close3 (40 * u) (a1, a2, a3) (A1, A2, A3) -> close3 (40 * u) (b1, b2, b3) (B1, B2, B3) ->
  Rabs (dot_product64 [a1; a2; a3] [b1; b2; b3] - dot3 A1 A2 A3 B1 B2 B3) <= 262 * u.
Proof.
  intros (Ea1 & Ea2 & Ea3 & Ma1 & Ma2 & Ma3) (Eb1 & Eb2 & Eb3 & Mb1 & Mb2 & Mb3). unfold dot_product64, sum64, dot3, map2. cbn [combine map fst snd fold_left].
  assert (U : 0 <= 40 * u <= 1000 * u) by (unfold u; lra).
  destruct (prod_err _ _ _ _ _ U Ea1 Ma1 Eb1 Mb1) as [P1 Q1]. destruct (prod_err _ _ _ _ _ U Ea2 Ma2 Eb2 Mb2) as [P2 Q2]. destruct (prod_err _ _ _ _ _ U Ea3 Ma3 Eb3 Mb3) as [P3 Q3].
  assert (S1 : Rabs (rnd64 (0 + rnd64 (a1 * b1)) - (0 + A1 * B1)) <= 0 + (82 * u) + 5 * u).
  { apply (add_err 0 0 _ _ 0 _ 1); [rewrite Rminus_0_r, Rabs_R0; lra|lra|rewrite Rplus_0_l; exact Q1|unfold u; lra|lra]. }
  assert (S2 : Rabs (rnd64 (rnd64 (0 + rnd64 (a1 * b1)) + rnd64 (a2 * b2)) - ((0 + A1 * B1) + A2 * B2)) <= 87 * u + 82 * u + 5 * u).
  { apply (add_err _ _ _ _ _ _ 2); [lra|lra| |unfold u; lra|lra]. rewrite Rplus_0_l. pose proof (Rabs_triang (A1 * B1) (A2 * B2)). lra. }
  assert (S3 : Rabs (rnd64 (rnd64 (rnd64 (0 + rnd64 (a1 * b1)) + rnd64 (a2 * b2)) + rnd64 (a3 * b3)) - (((0 + A1 * B1) + A2 * B2) + A3 * B3)) <= 174 * u + 82 * u + 5 * u).
  { apply (add_err _ _ _ _ _ _ 3); [lra|lra| |unfold u; lra|lra]. rewrite Rplus_0_l. pose proof (Rabs_triang (A1 * B1) (A2 * B2)). pose proof (Rabs_triang (A1 * B1 + A2 * B2) (A3 * B3)). lra. }
  rewrite (Rplus_0_l (A1 * B1)) in S3. unfold u in *. lra.
Qed.
Lemma comp_err a A b B c C d D : Rabs (a - A) <= 40 * u -> Rabs A <= 1 -> Rabs (b - B) <= 40 * u -> Rabs B <= 1 -> Rabs (c - C) <= 40 * u -> Rabs C <= 1 -> Rabs (d - D) <= 40 * u -> Rabs D <= 1 ->
  Rabs (rnd64 (rnd64 (a * b) - rnd64 (c * d)) - (A * B - C * D)) <= 169 * u.
Proof.
  intros. assert (U : 0 <= 40 * u <= 1000 * u) by (unfold u; lra).
  destruct (prod_err a A b B _ U) as [P1 Q1]; try assumption. destruct (prod_err c C d D _ U) as [P2 Q2]; try assumption.
  pose proof (sub_err _ _ _ _ _ _ 2 P1 P2) as S. assert (Rabs (A * B - C * D) <= 2) by (pose proof (Rabs_triang (A * B) (- (C * D))) as T; rewrite Rabs_Ropp in T; unfold Rminus; lra).
  specialize (S ltac:(assumption) ltac:(unfold u; lra) ltac:(lra)). unfold u in *. lra.
Qed.
Lemma dot3_edist a b c : edist [a; b; c] [0; 0; 0] = sqrt (dot3 a b c a b c).
Proof. unfold edist, dot3. f_equal. cbn. ring. Qed.
Lemma edist_dot3 a b c x y z : edist [x; y; z] [a; b; c] = sqrt (dot3 (x - a) (y - b) (z - c) (x - a) (y - b) (z - c)).
Proof. unfold edist, dot3. f_equal. cbn. ring. Qed.
Lemma norm_len c1 c2 c3 : rnd64 c1 = c1 -> rnd64 c2 = c2 -> rnd64 c3 = c3 -> l2_norm64 [c1; c2; c3] = len64 [c1; c2; c3] [0; 0; 0].
Proof. intros A B C. unfold l2_norm64, len64, sq64, map2. cbn [combine map fst snd]. rewrite !Rminus_0_r, A, B, C. reflexivity. Qed.
Lemma norm_err c1 c2 c3 C1 C2 C3 : rnd64 c1 = c1 -> rnd64 c2 = c2 -> rnd64 c3 = c3 ->
  Rabs (c1 - C1) <= 169 * u -> Rabs (c2 - C2) <= 169 * u -> Rabs (c3 - C3) <= 169 * u -> sqrt (dot3 C1 C2 C3 C1 C2 C3) <= 1 ->
  Rabs (l2_norm64 [c1; c2; c3] - sqrt (dot3 C1 C2 C3 C1 C2 C3)) <= 380 * u.
Proof.
  intros R1 R2 R3 E1 E2 E3 M. rewrite norm_len by assumption. pose proof (len64_err [c1; c2; c3] [0; 0; 0] eq_refl (or_intror eq_refl)) as L.
  rewrite <- dot3_edist in M |- *. pose proof (triangle [c1; c2; c3] [C1; C2; C3] [0; 0; 0] eq_refl eq_refl) as T1. pose proof (triangle [C1; C2; C3] [c1; c2; c3] [0; 0; 0] eq_refl eq_refl) as T2.
  rewrite (edist_sym [C1; C2; C3] [c1; c2; c3]) in T2.
  assert (D : edist [c1; c2; c3] [C1; C2; C3] <= 338 * u).
  { rewrite edist_dot3. rewrite <- (sqrt_square (338 * u)) by (unfold u; lra). apply sqrt_le_1_alt. unfold dot3.
    assert (Q : forall d, Rabs d <= 169 * u -> d * d <= (169 * u) * (169 * u)). { intros d Hd. rewrite <- (Rabs_pos_eq (d * d)) by (pose proof (Rle_0_sqr d); unfold Rsqr in *; lra). rewrite Rabs_mult. apply Rmult_le_compat; try apply Rabs_pos; assumption. }
    apply Q in E1. apply Q in E2. apply Q in E3. assert (0 <= (169 * u) * (169 * u)) by (unfold u; lra). lra. }
  assert (P : / 2 ^ 48 = 32 * u) by (unfold u; replace (2 ^ 48) with 281474976710656 by ring; lra). rewrite P in L.
  assert (P' : / 2 ^ 533 <= u). { unfold u. replace 9007199254740992 with (2 ^ 53) by ring. apply Rinv_le_contravar; [apply pow_lt; lra|apply Rle_pow; [lra|lia]]. }
  set (x := edist [c1; c2; c3] [0; 0; 0]) in *. set (y := edist [C1; C2; C3] [0; 0; 0]) in *. assert (X : 32 * u * x <= 32 * u * (1 + 1 / 32)) by (apply Rmult_le_compat_l; unfold u in *; lra).
  apply Rabs_le. apply Rabs_le_inv in L. unfold u in *. lra.
Qed.
Lemma quot_err n N d D c t : Rabs (n - N) <= 793 * u -> Rabs (d - D) <= 762 * u -> N = c * D -> -1 <= c <= 1 -> / 2 ^ 20 <= t <= 1 -> t * t <= D ->
  0 < d /\ Rabs (rnd64 (n / d) - c) <= / 2 ^ 41 / (t * t).
Proof.
  intros Hn Hd HN Hc Ht HD. assert (T0 : / 2 ^ 20 * / 2 ^ 20 <= t * t). { apply Rmult_le_compat; try (left; apply Rinv_0_lt_compat, pow_lt; lra); apply Ht. }
  assert (T : / 1099511627776 <= t * t). { replace (/ 1099511627776) with (/ 2 ^ 20 * / 2 ^ 20); [exact T0|]. rewrite <- Rinv_mult. f_equal. ring. }
  assert (TT : t * t <= 1). { replace 1 with (1 * 1) by ring. apply Rmult_le_compat; try apply Ht; eapply Rle_trans; [|apply Ht| |apply Ht]; left; apply Rinv_0_lt_compat, pow_lt; lra. }
  set (w := t * t) in *. assert (W : 0 < w) by lra. apply Rabs_le_inv in Hd. assert (DP : w * (9 / 10) <= d) by (unfold u in *; lra). assert (dP : 0 < d) by lra. split; [exact dP|].
  assert (Q : Rabs (n / d - c) <= 1800 * u / w).
  { replace (n / d - c) with ((n - c * d) / d) by (field; lra). unfold Rdiv. rewrite Rabs_mult, (Rabs_right (/ d)) by (left; apply Rinv_0_lt_compat, dP).
    assert (A : Rabs (n - c * d) <= 1555 * u). { replace (n - c * d) with ((n - N) + (- c) * (d - D)) by (rewrite HN; ring). eapply Rle_trans; [apply Rabs_triang|]. rewrite Rabs_mult, Rabs_Ropp.
      assert (Rabs c * Rabs (d - D) <= 1 * (762 * u)) by (apply Rmult_le_compat; try apply Rabs_pos; [apply Rabs_le; lra|apply Rabs_le; lra]). lra. }
    apply (Rmult_le_reg_r (d * w)); [apply Rmult_lt_0_compat; assumption|]. replace (Rabs (n - c * d) * / d * (d * w)) with (Rabs (n - c * d) * w) by (field; lra). replace (1800 * u * / w * (d * w)) with (1800 * u * d) by (field; lra).
    apply Rle_trans with (1555 * u * w); [apply Rmult_le_compat_r; lra|]. replace (1800 * u * d) with (u * (1800 * d)) by ring. replace (1555 * u * w) with (u * (1555 * w)) by ring. apply Rmult_le_compat_l; [unfold u; lra|lra]. }
  assert (W1 : 1 <= / w). { rewrite <- Rinv_1. apply Rinv_le_contravar; lra. } assert (W2 : / w <= 1099511627776). { rewrite <- (Rinv_inv 1099511627776). apply Rinv_le_contravar; [apply Rinv_0_lt_compat; lra|exact T]. }
  unfold Rdiv in Q |- *. set (v := / w) in *. assert (K : / 2 ^ 41 = 4096 * u). { unfold u. replace (2 ^ 41) with 2199023255552 by ring. lra. } rewrite K.
  assert (A : Rabs (n * / d) <= 2). { apply Rabs_le_inv in Q. apply Rabs_le. unfold u in *. lra. }
  pose proof (er1 _ _ A) as F. apply Rabs_le_inv in Q, F. apply Rabs_le. unfold u in *. lra.
Qed.
Lemma rnd_abs_le1 A B : A * A <= B -> 0 <= B -> Rabs A <= sqrt B.
Proof. intros H P. rewrite <- (sqrt_square (Rabs A)) by apply Rabs_pos. apply sqrt_le_1_alt. rewrite <- Rabs_mult, Rabs_pos_eq; [exact H|]. pose proof (Rle_0_sqr A). unfold Rsqr in *. lra. Qed.
Definition diff3 (q0 q1 : list R) : list R := map2 (fun a b => rnd64 (a - b)) q1 q0.
Lemma edge_err x y z a b c (d1 := x - a) (d2 := y - b) (d3 := z - c) (L := sqrt (dot3 d1 d2 d3 d1 d2 d3)) (L' := l2_norm64 (diff3 [a; b; c] [x; y; z])) : / 2 ^ 100 <= L ->
  0 < L' /\ exists e1 e2 e3, map (fun t => rnd64 (t / L')) (diff3 [a; b; c] [x; y; z]) = [e1; e2; e3] /\ close3 (40 * u) (e1, e2, e3) (d1 / L, d2 / L, d3 / L).
Proof.
  intros HL. assert (P0 : 0 < / 2 ^ 100) by (apply Rinv_0_lt_compat, pow_lt; lra). assert (E : Rabs (L' - L) <= 33 * u * L).
  { pose proof (len64_err [x; y; z] [a; b; c] eq_refl (or_intror eq_refl)) as E. rewrite edist_dot3 in E. fold d1 d2 d3 in E. change (len64 [x; y; z] [a; b; c]) with L' in E. change (sqrt _) with L in E.
    assert (P : / 2 ^ 48 = 32 * u) by (unfold u; replace (2 ^ 48) with 281474976710656 by ring; lra). rewrite P in E.
    assert (/ 2 ^ 533 <= u * L). { apply Rle_trans with (u * / 2 ^ 100); [|apply Rmult_le_compat_l; [unfold u; lra|exact HL]]. unfold u. replace 9007199254740992 with (2 ^ 53) by ring. rewrite <- Rinv_mult, <- pow_add. apply Rinv_le_contravar; [apply pow_lt; lra|apply Rle_pow; [lra|lia]]. }
    lra. }
  split. { apply Rabs_le_inv in E. assert (33 * u * L <= / 2 * L) by (apply Rmult_le_compat_r; unfold u; lra). lra. }
  assert (S : 0 <= d1 * d1 /\ 0 <= d2 * d2 /\ 0 <= d3 * d3). { repeat split; match goal with |- 0 <= ?t * ?t => pose proof (Rle_0_sqr t) as Q; unfold Rsqr in Q; exact Q end. }
  destruct (unit_comp d1 L L' HL) as [A1 B1]; [apply rnd_abs_le1; unfold dot3; lra|exact E|]. destruct (unit_comp d2 L L' HL) as [A2 B2]; [apply rnd_abs_le1; unfold dot3; lra|exact E|]. destruct (unit_comp d3 L L' HL) as [A3 B3]; [apply rnd_abs_le1; unfold dot3; lra|exact E|].
  exists (rnd64 (rnd64 d1 / L')), (rnd64 (rnd64 d2 / L')), (rnd64 (rnd64 d3 / L')). split; [reflexivity|]. cbn. auto 10.
Qed.
Lemma unit_one a b c : 0 < dot3 a b c a b c -> let L := sqrt (dot3 a b c a b c) in dot3 (a / L) (b / L) (c / L) (a / L) (b / L) (c / L) = 1.
Proof. intros H L. pose proof (sqrt_lt_R0 _ H) as P. fold L in P. replace (dot3 (a / L) (b / L) (c / L) (a / L) (b / L) (c / L)) with (dot3 a b c a b c / (L * L)) by (unfold dot3; field; lra). unfold L. rewrite sqrt_sq by lra. field. lra. Qed.
Lemma unit_dot a b c x y z : dot3 a b c a b c = 1 -> dot3 x y z x y z = 1 -> Rabs (dot3 a b c x y z) <= 1.
Proof. intros A B. pose proof (gram_nonneg a b c x y z) as G. rewrite A, B in G. rewrite <- sqrt_1. apply rnd_abs_le1; lra. Qed.
Lemma perp_gram u1 u2 u3 v1 v2 v3 : 0 < dot3 u1 u2 u3 u1 u2 u3 ->
  inner (perp [u1; u2; u3] [v1; v2; v3]) (perp [u1; u2; u3] [v1; v2; v3]) =
  (dot3 u1 u2 u3 u1 u2 u3 * dot3 v1 v2 v3 v1 v2 v3 - dot3 u1 u2 u3 v1 v2 v3 ^ 2) / dot3 u1 u2 u3 u1 u2 u3.
Proof. intros P. unfold perp. rewrite !inner3. unfold vtimes. cbn [map vplus]. rewrite !inner3. unfold dot3 in *. field. lra. Qed.
Lemma sine_bound U V G t : 0 < U -> 0 < V -> 0 <= G -> 0 <= t -> t * t * V <= G / U -> t <= sqrt G / (sqrt U * sqrt V).
Proof.
  intros HU HV HG Ht H. rewrite <- sqrt_mult by lra. rewrite <- sqrt_div_alt by (apply Rmult_lt_0_compat; assumption). rewrite <- (sqrt_square t) by exact Ht. apply sqrt_le_1_alt.
  apply (Rmult_le_reg_r (U * V)); [apply Rmult_lt_0_compat; assumption|]. replace (G / (U * V) * (U * V)) with (G / U * U) by (field; lra). replace (t * t * (U * V)) with (t * t * V * U) by ring. apply Rmult_le_compat_r; lra.
Qed.
Lemma cross_norm u1 u2 u3 v1 v2 v3 : dot3 u1 u2 u3 u1 u2 u3 = 1 -> dot3 v1 v2 v3 v1 v2 v3 = 1 ->
  sqrt (dot3 (u2 * v3 - u3 * v2) (u3 * v1 - u1 * v3) (u1 * v2 - u2 * v1) (u2 * v3 - u3 * v2) (u3 * v1 - u1 * v3) (u1 * v2 - u2 * v1)) <= 1.
Proof.
  intros A B. pose proof (lagrange u1 u2 u3 v1 v2 v3) as L. unfold cross_product in L. cbn [nth] in L. rewrite l2_norm3, A, B in L. rewrite L. rewrite <- sqrt_1 at 3.
  apply sqrt_le_1_alt. pose proof (pow2_ge_0 (dot3 u1 u2 u3 v1 v2 v3)). lra.
Qed.
Lemma rnd_fix x : rnd64 (rnd64 x) = rnd64 x.
Proof. apply rnd64_idem. Qed.
Lemma cross_err x1 x2 x3 y1 y2 y3 X1 X2 X3 Y1 Y2 Y3 : close3 (40 * u) (x1, x2, x3) (X1, X2, X3) -> close3 (40 * u) (y1, y2, y3) (Y1, Y2, Y3) ->
  dot3 X1 X2 X3 X1 X2 X3 = 1 -> dot3 Y1 Y2 Y3 Y1 Y2 Y3 = 1 ->
  Rabs (l2_norm64 (cross_product64 [x1; x2; x3] [y1; y2; y3]) -
    sqrt (dot3 (X2 * Y3 - X3 * Y2) (X3 * Y1 - X1 * Y3) (X1 * Y2 - X2 * Y1) (X2 * Y3 - X3 * Y2) (X3 * Y1 - X1 * Y3) (X1 * Y2 - X2 * Y1))) <= 380 * u.
Proof.
  intros (Ea1 & Ea2 & Ea3 & Ma1 & Ma2 & Ma3) (Eb1 & Eb2 & Eb3 & Mb1 & Mb2 & Mb3) OX OY. unfold cross_product64. cbv zeta. cbn [nth].
  apply norm_err; try apply rnd_fix; [apply comp_err; assumption..|apply cross_norm; assumption].
Qed.
Lemma cosine_close a b c d phi t : length a = 3%nat -> length b = 3%nat -> length c = 3%nat -> length d = 3%nat ->
  dihedral a b c d phi -> / 2 ^ 100 <= edist b a -> / 2 ^ 100 <= edist c a -> / 2 ^ 100 <= edist d a -> / 2 ^ 20 <= t <= 1 ->
  t * t * inner (vec a c) (vec a c) <= inner (perp (vec a b) (vec a c)) (perp (vec a b) (vec a c)) ->
  t * t * inner (vec a d) (vec a d) <= inner (perp (vec a b) (vec a d)) (perp (vec a b) (vec a d)) ->
  exists k, cphi64 a b c d = Some k /\ Rabs (k - cos phi) <= / 2 ^ 41 / (t * t).
Proof.
  intros La Lb Lc Ld.
  destruct a as [|a1 [|a2 [|a3 [|]]]]; try discriminate. destruct b as [|b1 [|b2 [|b3 [|]]]]; try discriminate.
  destruct c as [|c1 [|c2 [|c3 [|]]]]; try discriminate. destruct d as [|d1 [|d2 [|d3 [|]]]]; try discriminate.
  unfold dihedral. rewrite !vec3. rewrite !edist_dot3.
  unfold cphi64. fold (diff3 [a1; a2; a3] [b1; b2; b3]) (diff3 [a1; a2; a3] [c1; c2; c3]) (diff3 [a1; a2; a3] [d1; d2; d3]). cbv zeta.
  intros HD Lb' Lc' Ld' Ht Hc Hd.
  destruct (edge_err b1 b2 b3 a1 a2 a3 Lb') as (Pb & x1 & x2 & x3 & Mb & Cb). destruct (edge_err c1 c2 c3 a1 a2 a3 Lc') as (Pc & y1 & y2 & y3 & Mc & Cc). destruct (edge_err d1 d2 d3 a1 a2 a3 Ld') as (Pd & z1 & z2 & z3 & Md & Cd).
  rewrite Mb, Mc, Md. rewrite !(proj2 (Reqb_false _ 0)) by lra. cbn [orb].
  set (u1 := b1 - a1) in *. set (u2 := b2 - a2) in *. set (u3 := b3 - a3) in *. set (v1 := c1 - a1) in *. set (v2 := c2 - a2) in *. set (v3 := c3 - a3) in *. set (w1 := d1 - a1) in *. set (w2 := d2 - a2) in *. set (w3 := d3 - a3) in *.
  assert (P0 : 0 < / 2 ^ 100) by (apply Rinv_0_lt_compat, pow_lt; lra).
  assert (SP : forall q, / 2 ^ 100 <= sqrt q -> 0 < q). { intros q Q. destruct (Rle_or_lt q 0) as [N|]; [|assumption]. rewrite (sqrt_neg_0 q N) in Q. lra. }
  pose proof (SP _ Lb') as Hu. pose proof (SP _ Lc') as Hv. pose proof (SP _ Ld') as Hw.
  apply spec_angle in HD. destruct HD as (_ & G2 & G3 & Hphi & HN).
  pose proof (code_value u1 u2 u3 v1 v2 v3 w1 w2 w3 Hu Hv Hw) as (V2 & V3 & VN). unfold unit_of in V2, V3, VN. cbv zeta in V2, V3, VN. rewrite !l2_norm3 in V2. rewrite !l2_norm3 in V3. rewrite !l2_norm3 in VN. rewrite !dot_product3 in VN. unfold cross_product in V2, V3. cbn [nth] in V2, V3. rewrite !l2_norm3 in V2. rewrite !l2_norm3 in V3.
  set (Lu := sqrt (dot3 u1 u2 u3 u1 u2 u3)) in *. set (Lv := sqrt (dot3 v1 v2 v3 v1 v2 v3)) in *. set (Lw := sqrt (dot3 w1 w2 w3 w1 w2 w3)) in *.
  pose proof (unit_one u1 u2 u3 Hu) as Ou. pose proof (unit_one v1 v2 v3 Hv) as Ov. pose proof (unit_one w1 w2 w3 Hw) as Ow. cbv zeta in Ou, Ov, Ow. fold Lu in Ou. fold Lv in Ov. fold Lw in Ow.
  pose proof (unit_dot _ _ _ _ _ _ Ou Ov) as B12. pose proof (unit_dot _ _ _ _ _ _ Ou Ow) as B13. pose proof (unit_dot _ _ _ _ _ _ Ov Ow) as B23.
  pose proof (dot_err _ _ _ _ _ _ _ _ _ _ _ _ Cb Cc) as E12. pose proof (dot_err _ _ _ _ _ _ _ _ _ _ _ _ Cb Cd) as E13. pose proof (dot_err _ _ _ _ _ _ _ _ _ _ _ _ Cc Cd) as E23.
  pose proof (cross_err _ _ _ _ _ _ _ _ _ _ _ _ Cb Cc Ou Ov) as F2. pose proof (cross_err _ _ _ _ _ _ _ _ _ _ _ _ Cb Cd Ou Ow) as F3.
  pose proof (cross_norm _ _ _ _ _ _ Ou Ov) as M2. pose proof (cross_norm _ _ _ _ _ _ Ou Ow) as M3.
  rewrite (perp_gram _ _ _ _ _ _ Hu), inner3 in Hc. rewrite (perp_gram _ _ _ _ _ _ Hu), inner3 in Hd.
  assert (T0 : 0 < t). { eapply Rlt_le_trans; [|apply Ht]. apply Rinv_0_lt_compat, pow_lt. lra. }
  pose proof (sine_bound _ _ _ t Hu Hv (Rlt_le _ _ G2) (Rlt_le _ _ T0) Hc) as T2. pose proof (sine_bound _ _ _ t Hu Hw (Rlt_le _ _ G3) (Rlt_le _ _ T0) Hd) as T3.
  fold Lu in T2, T3. fold Lv in T2. fold Lw in T3. rewrite <- V2 in T2. rewrite <- V3 in T3.
  set (S2 := sqrt (dot3 _ _ _ _ _ _)) in F2, M2, T2, V2. set (S3 := sqrt (dot3 _ _ _ _ _ _)) in F3, M3, T3, V3.
  set (n2 := l2_norm64 (cross_product64 [x1; x2; x3] [y1; y2; y3])) in *. set (n3 := l2_norm64 (cross_product64 [x1; x2; x3] [z1; z2; z3])) in *.
  assert (U : 0 <= 380 * u <= 1000 * u) by (unfold u; lra). assert (A2 : Rabs S2 <= 1) by (rewrite Rabs_pos_eq; lra). assert (A3 : Rabs S3 <= 1) by (rewrite Rabs_pos_eq; lra).
  destruct (prod_err _ _ _ _ _ U F2 A2 F3 A3) as [FD _]. set (den := rnd64 (n2 * n3)) in *.
  assert (U' : 0 <= 262 * u <= 1000 * u) by (unfold u; lra). destruct (prod_err _ _ _ _ _ U' E12 B12 E13 B13) as [FP BP].
  assert (BN : Rabs (dot3 (v1 / Lv) (v2 / Lv) (v3 / Lv) (w1 / Lw) (w2 / Lw) (w3 / Lw) - dot3 (u1 / Lu) (u2 / Lu) (u3 / Lu) (v1 / Lv) (v2 / Lv) (v3 / Lv) * dot3 (u1 / Lu) (u2 / Lu) (u3 / Lu) (w1 / Lw) (w2 / Lw) (w3 / Lw)) <= 2).
  { eapply Rle_trans; [apply Rabs_triang|]. rewrite Rabs_Ropp. lra. }
  pose proof (sub_err _ _ _ _ _ _ 2 E23 FP BN ltac:(unfold u; lra) ltac:(lra)) as FN. rewrite VN in FN.
  assert (NE : (dot3 u1 u2 u3 u1 u2 u3 * dot3 v1 v2 v3 w1 w2 w3 - dot3 u1 u2 u3 v1 v2 v3 * dot3 u1 u2 u3 w1 w2 w3) / (dot3 u1 u2 u3 u1 u2 u3 * (Lv * Lw)) = cos phi * (S2 * S3)).
  { rewrite V2, V3, HN. pose proof (sqrt_lt_R0 _ Hu) as Su. pose proof (sqrt_lt_R0 _ Hv) as Sv. pose proof (sqrt_lt_R0 _ Hw) as Sw. fold Lu in Su. fold Lv in Sv. fold Lw in Sw.
    rewrite <- (sqrt_sq (dot3 u1 u2 u3 u1 u2 u3)) at 3 by lra. fold Lu. field. repeat split; lra. }
  rewrite NE in FN. set (num := rnd64 _) in FN.
  destruct (quot_err num (cos phi * (S2 * S3)) den (S2 * S3) (cos phi) t) as [DP Q]; [unfold u in *; lra|unfold u in *; lra|reflexivity|apply COS_bound|exact Ht|apply Rmult_le_compat; lra|].
  rewrite (proj2 (Reqb_false _ _)) by lra. eexists. split; [reflexivity|]. exact Q.
Qed.
