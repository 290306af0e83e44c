(** C129: rounding in the Torus, Prism and Cylinder signed distances. *)
From Coq Require Import List ZArith Reals Lia Lra.
From Flocq Require Import Core Plus_error.
From Verif Require Import Model.Base Model.FastHJ Model.SDF Model.Round Model.Solid64 Spec.Geom Proofs.GridIndex Proofs.SnapProofs Proofs.RoundProofs Proofs.Euclid Proofs.Quality64Proofs Props.P32_round.
Import ListNotations.
Local Open Scope R_scope.

(** a number of double precision *)
Definition double (x : R) : Prop := rnd64 x = x.
Lemma double_rnd x : double (rnd64 x).
Proof. exact (Quality64Proofs.rnd64_idem x). Qed.
Lemma double_max0 x : double x -> double (Rmax x 0).
Proof. intros H. unfold Rmax. destruct (Rle_dec x 0); [apply rnd64_0|exact H]. Qed.

Lemma length64_disk a b : double a -> double b -> length64 a b = ddisk64 0 0 0 [a; b].
Proof.
  intros A B. unfold ddisk64, sqdiff64, length64. rewrite !Rminus_0_r. rewrite A, B. symmetry. apply double_rnd.
Qed.
Definition v48 : R := / 2 ^ 48.
Definition w533 : R := / 2 ^ 533.
Lemma v48_val : v48 = / 281474976710656.
Proof. unfold v48. f_equal. ring. Qed.
Lemma w533_pos : 0 < w533.
Proof. apply Rinv_0_lt_compat, pow_lt. lra. Qed.
Lemma eta_w : eta <= w533.
Proof. unfold eta, w533. apply Rinv_le_contravar; [apply pow_lt; lra|apply Rle_pow; [lra|lia]]. Qed.
Lemma err' x : Rabs (rnd64 x - x) <= v48 / 32 * Rabs x + w533.
Proof. pose proof (err x) as E. pose proof eta_w. replace (v48 / 32) with u by (rewrite v48_val; unfold u; field). lra. Qed.
Lemma length64_err a b : double a -> double b -> Rabs (length64 a b - edist [a; b] [0; 0]) <= v48 * edist [a; b] [0; 0] + w533.
Proof.
  intros A B. rewrite length64_disk by assumption. pose proof (disk_err 0 0 0 a b) as E. fold v48 in E. fold w533 in E.
  rewrite Rabs_R0, Rplus_0_r, Rminus_0_r in E. exact E.
Qed.
Lemma length64_pos a b : 0 <= length64 a b.
Proof. unfold length64. apply rnd64_pos, sqrt_pos. Qed.
Lemma edist_le_sum a b c d : edist [a; b] [c; d] <= Rabs (a - c) + Rabs (b - d).
Proof.
  unfold edist. cbn [sqdist]. pose proof (Rabs_pos (a - c)). pose proof (Rabs_pos (b - d)). rewrite <- (sqrt_square (Rabs (a - c) + Rabs (b - d))) by lra.
  apply sqrt_le_1_alt. rewrite <- (pow2_abs (a - c)), <- (pow2_abs (b - d)). nra.
Qed.
Lemma edist_lip a b c d : Rabs (edist [a; b] [0; 0] - edist [c; d] [0; 0]) <= Rabs (a - c) + Rabs (b - d).
Proof.
  pose proof (edist_le_sum a b c d) as D. pose proof (triangle [a; b] [c; d] [0; 0] eq_refl eq_refl) as T1. pose proof (triangle [c; d] [a; b] [0; 0] eq_refl eq_refl) as T2.
  rewrite (edist_sym [c; d] [a; b]) in T2. apply Rabs_le. lra.
Qed.
Lemma edist_coord a b : Rabs a <= edist [a; b] [0; 0] /\ Rabs b <= edist [a; b] [0; 0].
Proof.
  unfold edist. cbn [sqdist]. rewrite !Rminus_0_r. pose proof (pow2_ge_0 a). pose proof (pow2_ge_0 b). split; rewrite <- sqrt_Rsqr_abs; apply sqrt_le_1_alt; unfold Rsqr; lra.
Qed.
Lemma max_lip a b c d e : Rabs (a - c) <= e -> Rabs (b - d) <= e -> Rabs (Rmax a b - Rmax c d) <= e.
Proof.
  intros A B. apply Rabs_le_inv in A, B. apply Rabs_le. unfold Rmax. destruct (Rle_dec a b), (Rle_dec c d); lra.
Qed.
Lemma min_lip a b c d e : Rabs (a - c) <= e -> Rabs (b - d) <= e -> Rabs (Rmin a b - Rmin c d) <= e.
Proof.
  intros A B. apply Rabs_le_inv in A, B. apply Rabs_le. unfold Rmin. destruct (Rle_dec a b), (Rle_dec c d); lra.
Qed.

(** one evaluation may be off by this, where s is the sum of the sizes of the coordinates and parameters *)
Definition blur3 (s : R) : R := / 2 ^ 45 * s + / 2 ^ 529.
Lemma blur3_val s : blur3 s = 8 * v48 * s + 16 * w533.
Proof.
  unfold blur3, v48, w533. replace (2 ^ 48) with (8 * 2 ^ 45) by ring. replace (2 ^ 533) with (16 * 2 ^ 529).
  - rewrite !Rinv_mult. assert (2 ^ 45 <> 0) by (apply pow_nonzero; lra). assert (2 ^ 529 <> 0) by (apply pow_nonzero; lra). set (a := 2 ^ 45) in *. set (b := 2 ^ 529) in *. clearbody a b. field. split; assumption.
  - change 533%nat with (4 + 529)%nat. rewrite pow_add. set (b := 2 ^ 529). clearbody b. ring.
Qed.
(** distance from the circle of radius r1 around the y axis, less the radius r2 of the tube *)
Definition ring_gap (r1 r2 x y z : R) : R := edist [edist [x; z] [0; 0]; y] [r1; 0] - r2.
Lemma edist_shift a b c : edist [a; b] [c; 0] = edist [a - c; b] [0; 0].
Proof. unfold edist. cbn [sqdist]. do 2 f_equal. rewrite Rminus_0_r. reflexivity. Qed.

Theorem C129_torus r1 r2 x y z : double x -> double y -> double z ->
  Rabs (dtorus64 r1 r2 [x; y; z] - ring_gap r1 r2 x y z) <= blur3 (Rabs x + Rabs y + Rabs z + Rabs r1 + Rabs r2).
Proof.
  intros X Y Z. rewrite blur3_val. unfold dtorus64, ring_gap. rewrite edist_shift. set (D := edist [x; z] [0; 0]). pose proof (length64_err x z X Z) as E1. fold D in E1.
  pose proof (edist_le_sum x z 0 0) as DS. fold D in DS. rewrite !Rminus_0_r in DS. pose proof (edist_nonneg [x; z] [0; 0]) as DP. fold D in DP.
  set (l := length64 x z) in *. pose proof (err' (l - r1)) as E2. set (q := rnd64 (l - r1)) in *.
  pose proof (length64_err q y (double_rnd _) Y) as E3. set (m := length64 q y) in *. pose proof (err' (m - r2)) as E4.
  pose proof (edist_lip q y (D - r1) y) as E5. pose proof (edist_le_sum (D - r1) y 0 0) as E6. pose proof (edist_nonneg (map (fun t => t) [D - r1; y]) [0; 0]) as P6. cbn [map] in P6.
  set (Q := edist [q; y] [0; 0]) in *. set (T := edist [D - r1; y] [0; 0]) in *. rewrite !Rminus_0_r in E6. replace (y - y) with 0 in E5 by ring. rewrite Rabs_R0, Rplus_0_r in E5.
  pose proof w533_pos as W. pose proof (Rabs_triang D (- r1)) as TR. rewrite Rabs_Ropp, (Rabs_right D) in TR by lra. fold (D - r1) in TR.
  assert (A1 : Rabs (l - r1) <= D + Rabs r1 + v48 * D + w533).
  { pose proof (Rabs_triang (D - r1) (l - D)) as H. replace (D - r1 + (l - D)) with (l - r1) in H by ring. lra. }
  assert (A2 : Rabs (q - (D - r1)) <= v48 * D + w533 + v48 / 32 * (D + Rabs r1 + v48 * D + w533) + w533).
  { pose proof (Rabs_triang (q - (l - r1)) (l - D)) as H. replace (q - (l - r1) + (l - D)) with (q - (D - r1)) in H by ring.
    assert (v48 / 32 * Rabs (l - r1) <= v48 / 32 * (D + Rabs r1 + v48 * D + w533)) by (apply Rmult_le_compat_l; [rewrite v48_val; lra|exact A1]). lra. }
  apply Rabs_le_inv in E3, E5. set (t := m - r2) in *. set (s := Rabs x + Rabs y + Rabs z + Rabs r1 + Rabs r2). pose proof (Rabs_pos x). pose proof (Rabs_pos y). pose proof (Rabs_pos z). pose proof (Rabs_pos r1). pose proof (Rabs_pos r2).
  assert (A3 : Rabs t <= m + Rabs r2). { unfold t. pose proof (Rabs_triang m (- r2)) as H'. rewrite Rabs_Ropp in H'. pose proof (length64_pos q y) as MP. fold m in MP. rewrite (Rabs_right m) in H' by lra. exact H'. }
  set (g := Rabs (q - (D - r1))) in *. rewrite v48_val in *.
  apply Rabs_le_inv in E4. assert (TE : t = m - r2) by reflexivity. clearbody t. set (rt := rnd64 t) in *. clearbody rt. apply Rabs_le. unfold s. rewrite TE in E4 at 2 3. lra.
Qed.
Print Assumptions C129_torus.

(** the three faces of the prism: flat ends, sloping sides (with the constant of the code for half the square root of 3), bottom *)
Definition prism_gap (b h x y z : R) : R := Rmax (Rabs z - h) (Rmax (866025 / 1000000 * Rabs x + y / 2) (- y) - b / 2).
Theorem C129_prism b h x y z : Rabs (dprism64 b h [x; y; z] - prism_gap b h x y z) <= blur3 (Rabs x + Rabs y + Rabs z + Rabs b + Rabs h).
Proof.
  rewrite blur3_val. unfold dprism64, prism_gap. pose proof w533_pos as W. set (s := Rabs x + Rabs y + Rabs z + Rabs b + Rabs h).
  pose proof (Rabs_pos x). pose proof (Rabs_pos y). pose proof (Rabs_pos z). pose proof (Rabs_pos b). pose proof (Rabs_pos h).
  pose proof (err' (Rabs z - h)) as E1. pose proof (Rabs_triang (Rabs z) (- h)) as T1. rewrite Rabs_Rabsolu, Rabs_Ropp in T1. fold (Rabs z - h) in T1.
  set (k := rnd64 (866025 / 1000000)). pose proof (err (866025 / 1000000)) as EK. fold k in EK. rewrite (Rabs_right (866025 / 1000000)) in EK by lra.
  pose proof eta_bound as EB. unfold u in EK. apply Rabs_le_inv in EK.
  assert (KB : Rabs (Rabs x * k - 866025 / 1000000 * Rabs x) <= v48 / 16 * Rabs x).
  { replace (Rabs x * k - 866025 / 1000000 * Rabs x) with (Rabs x * (k - 866025 / 1000000)) by ring. rewrite Rabs_mult, Rabs_Rabsolu, (Rmult_comm (v48 / 16)).
    apply Rmult_le_compat_l; [assumption|]. rewrite v48_val. apply Rabs_le. lra. }
  pose proof (err' (Rabs x * k)) as E2. set (xk := Rabs x * k) in *. pose proof (err' (y * (5 / 10))) as E3. pose proof (err' (b * (5 / 10))) as E4.
  set (rx := rnd64 xk) in *. set (ry := rnd64 (y * (5 / 10))) in *. set (rb := rnd64 (b * (5 / 10))) in *.
  assert (Y5 : Rabs (y * (5 / 10)) = Rabs y * (5 / 10)) by (rewrite Rabs_mult; f_equal; apply Rabs_right; lra). assert (B5 : Rabs (b * (5 / 10)) = Rabs b * (5 / 10)) by (rewrite Rabs_mult; f_equal; apply Rabs_right; lra).
  rewrite Y5 in E3. rewrite B5 in E4. pose proof (err' (rx + ry)) as E5. set (sl := rnd64 (rx + ry)) in *.
  assert (XK : Rabs xk <= Rabs x). { apply Rabs_le_inv in KB. rewrite v48_val in KB. apply Rabs_le. lra. }
  assert (A5 : Rabs (rx + ry) <= 2 * Rabs x + Rabs y + 2 * w533).
  { apply Rabs_le_inv in E2, E3. pose proof (Rle_abs xk). pose proof (Rle_abs (- xk)) as N. rewrite Rabs_Ropp in N. pose proof (Rle_abs y). pose proof (Rle_abs (- y)) as N'. rewrite Rabs_Ropp in N'. rewrite v48_val in *. apply Rabs_le. lra. }
  assert (E6 : Rabs (Rmax sl (- y) - Rmax (866025 / 1000000 * Rabs x + y / 2) (- y)) <= v48 * (Rabs x + Rabs y) + 4 * w533).
  { apply max_lip; [|rewrite Rminus_diag_eq, Rabs_R0 by reflexivity; rewrite v48_val; lra]. apply Rabs_le_inv in E2, E3, E5, KB. rewrite v48_val in *. apply Rabs_le. lra. }
  set (mx := Rmax sl (- y)) in *. set (MX := Rmax (866025 / 1000000 * Rabs x + y / 2) (- y)) in *.
  assert (MB : Rabs MX <= Rabs x + Rabs y).
  { unfold MX. pose proof (Rle_abs y). pose proof (Rle_abs (- y)) as N'. rewrite Rabs_Ropp in N'. apply Rabs_le. unfold Rmax. destruct (Rle_dec _ _); lra. }
  pose proof (err' (mx - rb)) as E7. apply Rabs_le_inv in MB. assert (A7 : Rabs (mx - rb) <= 2 * s + 6 * w533).
  { unfold s. pose proof (Rle_abs b). pose proof (Rle_abs (- b)) as N'. rewrite Rabs_Ropp in N'. apply Rabs_le_inv in E6, E4. rewrite v48_val in *. apply Rabs_le. lra. }
  apply max_lip.
  - apply Rabs_le_inv in E1. unfold s. rewrite v48_val in *. apply Rabs_le. lra.
  - apply Rabs_le_inv in E6, E4, E7. unfold s in *. rewrite v48_val in *. apply Rabs_le. lra.
Qed.
Print Assumptions C129_prism.

(** outside the cylinder: distance to it; inside: minus the distance to the nearest of side and ends *)
Definition cylinder_gap (h r x y z : R) : R :=
  let side := edist [x; z] [0; 0] - r in let ends := Rabs y - h / 2 in
  Rmin (Rmax side ends) 0 + edist [Rmax side 0; Rmax ends 0] [0; 0].
Theorem C129_cylinder h r x y z : double x -> double y -> double z ->
  Rabs (dcylinder64 h r [x; y; z] - cylinder_gap h r x y z) <= blur3 (Rabs x + Rabs y + Rabs z + Rabs h + Rabs r).
Proof.
  intros X Y Z. rewrite blur3_val. unfold dcylinder64, cylinder_gap. cbv zeta. pose proof w533_pos as W. set (s := Rabs x + Rabs y + Rabs z + Rabs h + Rabs r).
  pose proof (Rabs_pos x). pose proof (Rabs_pos y). pose proof (Rabs_pos z). pose proof (Rabs_pos h). pose proof (Rabs_pos r).
  set (D := edist [x; z] [0; 0]). pose proof (length64_err x z X Z) as E1. fold D in E1.
  pose proof (edist_le_sum x z 0 0) as DS. fold D in DS. rewrite !Rminus_0_r in DS. pose proof (edist_nonneg [x; z] [0; 0]) as DP. fold D in DP.
  rewrite (Rabs_right (length64 x z)) by (apply Rle_ge, length64_pos). set (l := length64 x z) in *.
  pose proof (err' (l - r)) as E2. set (d0 := rnd64 (l - r)) in *. pose proof (err' (h / 2)) as E3. set (hh := rnd64 (h / 2)) in *. pose proof (err' (Rabs y - hh)) as E4.
  assert (DD1 : double (rnd64 (Rabs y - hh))) by apply double_rnd. assert (DD0 : double d0) by apply double_rnd. set (d1 := rnd64 (Rabs y - hh)) in *.
  assert (HH2 : Rabs (h / 2) = Rabs h / 2) by (unfold Rdiv; rewrite Rabs_mult; f_equal; apply Rabs_right; lra). rewrite HH2 in E3.
  pose proof (Rle_abs h) as h1. pose proof (Rle_abs (- h)) as h2. rewrite Rabs_Ropp in h2. pose proof (Rle_abs r) as r1. pose proof (Rle_abs (- r)) as r2. rewrite Rabs_Ropp in r2.
  assert (A2 : Rabs (l - r) <= s + v48 * s + w533). { apply Rabs_le_inv in E1. unfold s. rewrite v48_val in *. apply Rabs_le. lra. }
  assert (A4 : Rabs (Rabs y - hh) <= s + w533). { apply Rabs_le_inv in E3. unfold s. rewrite v48_val in *. apply Rabs_le. lra. }
  set (e := 9 / 8 * v48 * s + 9 / 4 * w533).
  assert (F0 : Rabs (d0 - (D - r)) <= e). { apply Rabs_le_inv in E1, E2. unfold e, s in *. rewrite v48_val in *. apply Rabs_le. lra. }
  assert (F1 : Rabs (d1 - (Rabs y - h / 2)) <= e). { apply Rabs_le_inv in E3, E4. unfold e, s in *. rewrite v48_val in *. apply Rabs_le. lra. }
  set (d0' := D - r) in *. set (d1' := Rabs y - h / 2) in *.
  assert (EP : 0 <= e) by (eapply Rle_trans; [apply Rabs_pos|exact F0]).
  assert (Z0 : forall a, Rabs (a - a) <= e) by (intros a; rewrite Rminus_diag_eq, Rabs_R0 by reflexivity; exact EP).
  pose proof (min_lip _ 0 _ 0 _ (max_lip _ _ _ _ _ F0 F1) (Z0 0)) as F2. pose proof (max_lip _ 0 _ 0 _ F0 (Z0 0)) as F3. pose proof (max_lip _ 0 _ 0 _ F1 (Z0 0)) as F4.
  pose proof (length64_err (Rmax d0 0) (Rmax d1 0) (double_max0 _ DD0) (double_max0 _ DD1)) as E5. pose proof (edist_lip (Rmax d0 0) (Rmax d1 0) (Rmax d0' 0) (Rmax d1' 0)) as F5.
  set (Q := edist [Rmax d0 0; Rmax d1 0] [0; 0]) in *. set (T := edist [Rmax d0' 0; Rmax d1' 0] [0; 0]) in *. set (m := length64 (Rmax d0 0) (Rmax d1 0)) in *.
  pose proof (edist_le_sum (Rmax d0' 0) (Rmax d1' 0) 0 0) as TS. fold T in TS. rewrite !Rminus_0_r in TS. pose proof (edist_nonneg [Rmax d0' 0; Rmax d1' 0] [0; 0]) as TP. fold T in TP.
  assert (M0 : forall a B, a <= B -> 0 <= B -> Rabs (Rmax a 0) <= B) by (intros a B HA HB; rewrite Rabs_right; [apply Rmax_lub; assumption|apply Rle_ge, Rmax_r]).
  assert (TB : T <= 2 * s).
  { pose proof (M0 d0' s ltac:(unfold d0', s; lra) ltac:(unfold s; lra)). pose proof (M0 d1' s ltac:(unfold d1', s; lra) ltac:(unfold s; lra)). lra. }
  set (mi := Rmin (Rmax d0 d1) 0) in *. set (mi' := Rmin (Rmax d0' d1') 0) in *.
  assert (MB : - s <= mi' <= 0). { unfold mi', s. split; [|apply Rmin_r]. apply Rmin_glb; [|lra]. apply Rle_trans with d0'; [unfold d0'; lra|apply Rmax_l]. }
  pose proof (err' (mi + m)) as E6. set (rt := rnd64 (mi + m)) in *.
  assert (SP : 0 <= s) by (unfold s; lra). clearbody rt mi mi' m Q T. apply Rabs_le_inv in F2, E5. 
  assert (F6 : Rabs (Q - T) <= 2 * e) by lra. apply Rabs_le_inv in F6.
  assert (A6 : Rabs (mi + m) <= 4 * s + 16 * w533). { unfold e in *. rewrite v48_val in *. clearbody s. apply Rabs_le. lra. }
  apply Rabs_le_inv in E6. unfold e in *. rewrite v48_val in *. clearbody s. apply Rabs_le. lra.
Qed.
Print Assumptions C129_cylinder.

(** ---- a point further from the surface than that is put on the right side ---- *)
Theorem C129_torus_side r1 r2 x y z : double x -> double y -> double z ->
  let m := blur3 (Rabs x + Rabs y + Rabs z + Rabs r1 + Rabs r2) in
  (edist [edist [x; z] [0; 0]; y] [r1; 0] < r2 - m -> dtorus64 r1 r2 [x; y; z] < 0) /\
  (edist [edist [x; z] [0; 0]; y] [r1; 0] > r2 + m -> dtorus64 r1 r2 [x; y; z] > 0).
Proof. intros X Y Z m. pose proof (C129_torus r1 r2 x y z X Y Z) as E. fold m in E. apply Rabs_le_inv in E. unfold ring_gap in E. split; intros; lra. Qed.
Print Assumptions C129_torus_side.

Theorem C129_prism_side b h x y z :
  let m := blur3 (Rabs x + Rabs y + Rabs z + Rabs b + Rabs h) in
  (Rabs z < h - m -> y > - b / 2 + m -> 866025 / 1000000 * Rabs x + y / 2 < b / 2 - m -> dprism64 b h [x; y; z] < 0) /\
  (Rabs z > h + m \/ y < - b / 2 - m \/ 866025 / 1000000 * Rabs x + y / 2 > b / 2 + m -> dprism64 b h [x; y; z] > 0).
Proof.
  intros m. pose proof (C129_prism b h x y z) as E. fold m in E. apply Rabs_le_inv in E. unfold prism_gap in E. set (s := 866025 / 1000000 * Rabs x + y / 2) in *.
  pose proof (Rmax_l (Rabs z - h) (Rmax s (- y) - b / 2)). pose proof (Rmax_r (Rabs z - h) (Rmax s (- y) - b / 2)). pose proof (Rmax_l s (- y)). pose proof (Rmax_r s (- y)). split.
  - intros A B C. assert (Rmax (Rabs z - h) (Rmax s (- y) - b / 2) < - m); [|lra]. apply Rmax_lub_lt; [lra|]. assert (Rmax s (- y) < b / 2 - m); [|lra]. apply Rmax_lub_lt; lra.
  - intros [A|[A|A]]; lra.
Qed.
Print Assumptions C129_prism_side.

Theorem C129_cylinder_side h r x y z : double x -> double y -> double z ->
  let m := blur3 (Rabs x + Rabs y + Rabs z + Rabs h + Rabs r) in
  (edist [x; z] [0; 0] < r - m -> Rabs y < h / 2 - m -> dcylinder64 h r [x; y; z] < 0) /\
  (edist [x; z] [0; 0] > r + m \/ Rabs y > h / 2 + m -> dcylinder64 h r [x; y; z] > 0).
Proof.
  intros X Y Z m. pose proof (C129_cylinder h r x y z X Y Z) as E. fold m in E. apply Rabs_le_inv in E. unfold cylinder_gap in E. cbv zeta in E.
  assert (MP : 0 <= m). { unfold m. rewrite blur3_val, v48_val. pose proof w533_pos. pose proof (Rabs_pos x). pose proof (Rabs_pos y). pose proof (Rabs_pos z). pose proof (Rabs_pos h). pose proof (Rabs_pos r). lra. }
  set (a := edist [x; z] [0; 0] - r) in *. set (b := Rabs y - h / 2) in *. destruct (edist_coord (Rmax a 0) (Rmax b 0)) as [C1 C2].
  split.
  - intros A B. assert (Aa : a < - m) by (unfold a; lra). assert (Bb : b < - m) by (unfold b; lra). clearbody a b. assert (M : Rmax a b < - m) by (apply Rmax_lub_lt; assumption).
    rewrite (Rmax_right a 0), (Rmax_right b 0), (Rmin_left (Rmax a b) 0) in E by lra. replace (edist [0; 0] [0; 0]) with 0 in E by (unfold edist; rewrite sqdist_refl, sqrt_0; reflexivity). lra.
  - intros H. assert (G : a > m \/ b > m) by (unfold a, b; lra). clearbody a b. assert (M : Rmin (Rmax a b) 0 = 0). { apply Rmin_right. destruct G; [apply Rle_trans with a; [lra|apply Rmax_l]|apply Rle_trans with b; [lra|apply Rmax_r]]. }
    rewrite M in E. pose proof (Rmax_l a 0). pose proof (Rmax_l b 0). pose proof (Rle_abs (Rmax a 0)). pose proof (Rle_abs (Rmax b 0)). destruct G as [G|G]; lra.
Qed.
Print Assumptions C129_cylinder_side.

(** ---- nearer to the surface it need not be: points outside the unit cylinder and outside a torus with value 0 ---- *)
Lemma double_one : double 1.
Proof. unfold double. apply near_one; lra. Qed.
Lemma double_zero : double 0.
Proof. apply rnd64_0. Qed.
Lemma length64_near_one t : double t -> t <> 0 -> Rabs t <= / 2 ^ 27 -> length64 1 t = 1.
Proof.
  intros D N B. rewrite length64_disk by (exact double_one || exact D). pose proof (proj2 (C98_outside_unnoticed_refuted t N B)) as H.
  assert (L : double (length64 1 t)) by apply double_rnd. pose proof (length64_disk 1 t double_one D) as E. rewrite <- E. clear E.
  assert (H' : rnd64 (length64 1 t - 1) = 0).
  { rewrite <- H. unfold ddisk64, sqdiff64, length64. rewrite !Rminus_0_r. rewrite double_one, D. reflexivity. }
  assert (S : length64 1 t - 1 = 0); [|lra].
  destruct (Req_dec (length64 1 t - 1) 0) as [Z|Z]; [exact Z|]. exfalso.
  assert (F : forall v, double v -> generic_format radix2 (FLT_exp (-1074) 53) v) by (intros v V; rewrite <- V; unfold rnd64; apply generic_format_round; [apply FLT_exp_valid; reflexivity|typeclasses eauto]).
  assert (VE : Valid_exp (FLT_exp (-1074) 53)) by (apply FLT_exp_valid; reflexivity). assert (MO : Monotone_exp (FLT_exp (-1074) 53)) by apply FLT_exp_monotone.
  revert H'. unfold rnd64, Rminus. apply round_plus_neq_0; [typeclasses eauto..|apply F, L|apply generic_format_opp, F, double_one|exact Z].
Qed.
Theorem C129_outside_unnoticed_refuted : forall t, double t -> t <> 0 -> Rabs t <= / 2 ^ 27 ->
  (0 < cylinder_gap 2 1 1 0 t /\ dcylinder64 2 1 [1; 0; t] = 0) /\
  (0 < ring_gap (1 / 2) (1 / 2) 1 0 t /\ dtorus64 (1 / 2) (1 / 2) [1; 0; t] = 0).
Proof.
  intros t D N B. pose proof (proj1 (C98_outside_unnoticed_refuted t N B)) as O. pose proof (length64_near_one t D N B) as L.
  assert (H1 : rnd64 (-1) = -1). { replace (-1) with (- (1)) by ring. unfold rnd64. rewrite round_NE_opp. fold (rnd64 1). rewrite double_one. reflexivity. }
  assert (HH : double (1 / 2)). { unfold double. replace (1 / 2) with (/ 2 ^ 1) by lra. replace (/ 2 ^ 1) with (bpow radix2 (-1)) by (change (bpow radix2 (-1)) with (/ 2); lra). apply fmt_bpow. lia. }
  set (w := edist [1; t] [0; 0]) in *. split; split.
  - unfold cylinder_gap. cbv zeta. fold w. rewrite Rabs_R0. rewrite (Rmax_left (w - 1) (0 - 2 / 2)) by lra. rewrite (Rmin_right (w - 1) 0) by lra. rewrite (Rmax_left (w - 1) 0) by lra.
    destruct (edist_coord (w - 1) (Rmax (0 - 2 / 2) 0)) as [C _]. pose proof (Rle_abs (w - 1)). lra.
  - unfold dcylinder64. cbv zeta. rewrite L, Rabs_R0, (Rabs_right 1) by lra. replace (1 - 1) with 0 by ring. rewrite rnd64_0. replace (2 / 2) with 1 by lra. rewrite double_one. replace (0 - 1) with (-1) by ring. rewrite H1.
    rewrite (Rmax_left 0 (-1)), (Rmin_left 0 0), (Rmax_left 0 0), (Rmax_right (-1) 0) by lra. unfold length64. repeat first [rewrite Rmult_0_l|rewrite rnd64_0|rewrite Rplus_0_l|rewrite sqrt_0]. reflexivity.
  - unfold ring_gap. fold w. rewrite edist_shift. destruct (edist_coord (w - 1 / 2) 0) as [C _]. pose proof (Rle_abs (w - 1 / 2)). lra.
  - unfold dtorus64. rewrite L. replace (1 - 1 / 2) with (1 / 2) by lra. rewrite HH. unfold length64.
    assert (Q : double (1 / 2 * (1 / 2))). { unfold double. replace (1 / 2 * (1 / 2)) with (bpow radix2 (-2)) by (change (bpow radix2 (-2)) with (/ 4); lra). apply fmt_bpow. lia. }
    rewrite Q. rewrite Rmult_0_l, rnd64_0, Rplus_0_r, Q. rewrite sqrt_square by lra. rewrite HH. rewrite Rminus_diag_eq by reflexivity. apply rnd64_0.
Qed.
Print Assumptions C129_outside_unnoticed_refuted.

Example C129_case : double 3 /\ double 4 /\ blur3 (Rabs 3 + Rabs 0 + Rabs 4 + Rabs 1 + Rabs 1) < 1 /\ edist [edist [3; 4] [0; 0]; 0] [1; 0] = 4.
Proof.
  assert (I : forall n, (0 <= n <= 8)%Z -> double (IZR n)).
  { intros n Hn. unfold double. assert (n = 0 \/ n = 1 \/ n = 2 \/ n = 3 \/ n = 4 \/ n = 5 \/ n = 6 \/ n = 7 \/ n = 8)%Z by lia. unfold rnd64. apply round_generic; [typeclasses eauto|].
    apply generic_format_FLT. apply (FLT_spec _ _ _ _ (Float radix2 n 0)); [unfold F2R; cbn [Fnum Fexp]; change (bpow radix2 0) with 1; ring|cbn; lia|cbn; lia]. }
  assert (E : edist [3; 4] [0; 0] = 5). { unfold edist. cbn [sqdist]. replace ((3 - 0) ^ 2 + ((4 - 0) ^ 2 + 0)) with (5 * 5) by ring. apply sqrt_square. lra. }
  split; [apply (I 3%Z); lia|]. split; [apply (I 4%Z); lia|]. split.
  - rewrite Rabs_R0, !(Rabs_right _) by lra. rewrite blur3_val, v48_val. assert (w533 <= / 2 ^ 10) by (apply Rinv_le_contravar; [apply pow_lt; lra|apply Rle_pow; [lra|lia]]). replace (2 ^ 10) with 1024 in * by ring. lra.
  - rewrite E. unfold edist. cbn [sqdist]. replace ((5 - 1) ^ 2 + ((0 - 0) ^ 2 + 0)) with (4 * 4) by ring. apply sqrt_square. lra.
Qed.

(** The exact values are those of the formulas over the reals (Model/SDF.v), about which the other theorems on these shapes speak. *)
Theorem C129_exact_formulas r1 r2 b h r x y z :
  dtorus r1 r2 [x; y; z] = ring_gap r1 r2 x y z /\ dprism b h [x; y; z] = prism_gap b h x y z /\ dcylinder (h / 2) r [x; y; z] = cylinder_gap h r x y z.
Proof.
  assert (L : forall a c, length_ [a; c] = edist [a; c] [0; 0]).
  { intros a c. unfold length_, edist. cbn [sqdist map fold_right]. rewrite !pow2_abs. f_equal. ring. }
  repeat split.
  - unfold dtorus, ring_gap. rewrite edist_shift, !L. reflexivity.
  - unfold dprism, prism_gap. replace (Rabs x * (866025 / 1000000) + y * (5 / 10)) with (866025 / 1000000 * Rabs x + y / 2) by field. replace (b * (5 / 10)) with (b / 2) by field. reflexivity.
  - unfold dcylinder, cylinder_gap. cbv zeta. rewrite !L. rewrite (Rabs_right (edist [x; z] [0; 0])) by (apply Rle_ge, edist_nonneg). reflexivity.
Qed.
Print Assumptions C129_exact_formulas.
