(** Rounding errors of the Disk and Ball distances. *)
From Coq Require Import List ZArith Reals Lia Lra.
From Flocq Require Import Core.
From Verif Require Import Model.Base Model.FastHJ Model.SDF Model.Round Spec.Geom Proofs.GridIndex Proofs.SnapProofs.
Import ListNotations.
Local Open Scope R_scope.

Definition u : R := / 9007199254740992.
Definition eta : R := / 2 ^ 1075.
Lemma eta_bound : 0 < eta <= / 1152921504606846976.
Proof.
  unfold eta. split; [apply Rinv_0_lt_compat, pow_lt; lra|]. replace 1152921504606846976 with (2 ^ 60) by ring.
  apply Rinv_le_contravar; [apply pow_lt; lra | apply Rle_pow; [lra | lia]].
Qed.
Lemma err x : Rabs (rnd64 x - x) <= u * Rabs x + eta.
Proof.
  pose proof (err64 x) as E. replace (/ 2 ^ 53) with u in E by (unfold u; f_equal; ring).
  replace (bpow radix2 (-1075)) with eta in E; [exact E|]. unfold eta. rewrite bpow_opp with (e := 1075%Z). f_equal.
  rewrite <- (IZR_Zpower radix2 1075) by lia. rewrite pow_IZR. reflexivity.
Qed.
Ltac abs_le := apply Rabs_le_inv || idtac.
Lemma sq_err x c : 0 <= sqdiff64 x c /\ Rabs (sqdiff64 x c - (x - c) ^ 2) <= 5 * u * (x - c) ^ 2 + 6 * eta.
Proof.
  unfold sqdiff64. set (t := x - c). set (d := rnd64 t). split; [apply rnd64_pos; pose proof (Rle_0_sqr d); unfold Rsqr in *; lra|].
  pose proof (err t) as E. fold d in E. pose proof (err (d * d)) as F. pose proof (Rle_0_sqr d) as D2. pose proof (Rle_0_sqr t) as T2. unfold Rsqr in D2, T2.
  rewrite (Rabs_right (d * d)) in F by lra. pose proof eta_bound as B. set (e := u * Rabs t + eta) in *.
  assert (U : u = / 9007199254740992) by reflexivity. pose proof (Rabs_pos t) as A.
  assert (TT : Rabs t * Rabs t = t * t) by (rewrite <- Rabs_mult; apply Rabs_right; lra).
  assert (Q : Rabs (d * d - t * t) <= e * (2 * Rabs t + e)).
  { replace (d * d - t * t) with ((d - t) * (d + t)) by ring. rewrite Rabs_mult. apply Rmult_le_compat; [apply Rabs_pos | apply Rabs_pos | exact E |].
    replace (d + t) with ((d - t) + 2 * t) by ring. eapply Rle_trans; [apply Rabs_triang|]. rewrite (Rabs_mult 2), (Rabs_right 2) by lra. lra. }
  assert (T1 : 2 * Rabs t <= t * t + 1). { pose proof (Rle_0_sqr (Rabs t - 1)) as S. unfold Rsqr in S. lra. }
  assert (X : e * (2 * Rabs t + e) <= 3 * u * (t * t) + 4 * eta).
  { unfold e. replace ((u * Rabs t + eta) * (2 * Rabs t + (u * Rabs t + eta))) with
      ((2 * u + u * u) * (Rabs t * Rabs t) + (eta * (1 + u)) * (2 * Rabs t) + eta * eta) by ring. rewrite TT.
    assert ((eta * (1 + u)) * (2 * Rabs t) <= (eta * (1 + u)) * (t * t + 1)) by (apply Rmult_le_compat_l; [rewrite U; nra | exact T1]).
    assert (eta * (1 + u) <= / 1000000000000000000) by (rewrite U; lra).
    assert ((eta * (1 + u)) * (t * t) <= / 1000000000000000000 * (t * t)) by (apply Rmult_le_compat_r; assumption).
    assert (eta * eta <= eta * / 1152921504606846976) by (apply Rmult_le_compat_l; lra). rewrite U in *. lra. }
  replace (t ^ 2) with (t * t) by ring. apply Rabs_le_inv in F. assert (Q' : Rabs (d * d - t * t) <= 3 * u * (t * t) + 4 * eta) by lra. apply Rabs_le_inv in Q'.
  apply Rabs_le. rewrite U in *. lra.
Qed.
Definition rough : R := / 2 ^ 535.
Lemma rough_sq : rough * rough = 32 * eta.
Proof.
  unfold rough, eta. rewrite <- Rinv_mult, <- pow_add. replace 32 with (2 ^ 5) by ring. replace (2 ^ 1075) with (2 ^ 5 * 2 ^ (535 + 535)) by (rewrite <- pow_add; reflexivity).
  rewrite (Rinv_mult (2 ^ 5)), <- Rmult_assoc, Rinv_r, Rmult_1_l; [reflexivity|]. apply pow_nonzero. lra.
Qed.
Lemma rough_pos : 0 < rough.
Proof. apply Rinv_0_lt_compat, pow_lt. lra. Qed.
Lemma eta_rough : eta <= / 1024 * rough.
Proof.
  unfold eta, rough. replace 1024 with (2 ^ 10) by ring. rewrite <- Rinv_mult, <- pow_add. apply Rinv_le_contravar; [apply pow_lt; lra | apply Rle_pow; [lra | lia]].
Qed.
Lemma root_err S D : 0 <= S -> 0 <= D -> Rabs (S - D * D) <= 16 * u * (D * D) + 32 * eta -> Rabs (sqrt S - D) <= 16 * u * D + rough.
Proof.
  intros P Q E. apply Rabs_le_inv in E. pose proof rough_pos as C. pose proof rough_sq as C2. pose proof eta_bound as B.
  assert (U : u = / 9007199254740992) by reflexivity. pose proof (sqrt_pos S) as R. pose proof (sqrt_sqrt S P) as RR.
  apply Rabs_le. split.
  - assert (D * (1 - 16 * u) <= sqrt S + rough); [| lra]. apply Rsqr_incr_0_var; [| lra]. unfold Rsqr.
    assert (0 <= D * D) by nra. assert (0 <= sqrt S * rough) by nra.
    apply Rle_trans with (D * D * (1 - 16 * u)); [rewrite U; nra|].
    replace ((sqrt S + rough) * (sqrt S + rough)) with (sqrt S * sqrt S + 2 * (sqrt S * rough) + rough * rough) by ring. rewrite RR, C2. lra.
  - assert (sqrt S <= D * (1 + 16 * u) + rough); [| lra]. assert (0 <= D * (1 + 16 * u)) by (rewrite U; nra). apply Rsqr_incr_0_var; [| lra]. unfold Rsqr. rewrite RR.
    assert (0 <= D * D) by nra. assert (0 <= D * (1 + 16 * u) * rough) by nra.
    replace ((D * (1 + 16 * u) + rough) * (D * (1 + 16 * u) + rough)) with (D * D * ((1 + 16 * u) * (1 + 16 * u)) + 2 * (D * (1 + 16 * u) * rough) + rough * rough) by ring.
    rewrite C2. assert (D * D * (1 + 16 * u) <= D * D * ((1 + 16 * u) * (1 + 16 * u))) by (apply Rmult_le_compat_l; [assumption | rewrite U; lra]). lra.
Qed.
Lemma final_err S D r : 0 <= S -> 0 <= D -> Rabs (S - D * D) <= 16 * u * (D * D) + 32 * eta ->
  Rabs (rnd64 (rnd64 (sqrt S) - r) - (D - r)) <= / 2 ^ 48 * (D + Rabs r) + / 2 ^ 533.
Proof.
  intros P Q E. pose proof (root_err S D P Q E) as A. set (q := sqrt S) in *. pose proof (err q) as F. set (n := rnd64 q) in *. pose proof (err (n - r)) as G.
  pose proof rough_pos as C. pose proof eta_rough as ER. pose proof (sqrt_pos S) as QP. fold q in QP. rewrite (Rabs_right q) in F by lra.
  assert (U : u = / 9007199254740992) by reflexivity. apply Rabs_le_inv in A, F.
  assert (N : Rabs (n - r) <= D + Rabs r + 18 * u * D + 2 * rough).
  { replace (n - r) with (n + - r) by ring. eapply Rle_trans; [apply Rabs_triang|]. rewrite Rabs_Ropp.
    assert (Rabs n <= D + 18 * u * D + 2 * rough); [| lra]. apply Rabs_le. rewrite U in *. lra. }
  assert (G' : Rabs (rnd64 (n - r) - (n - r)) <= u * (D + Rabs r + 18 * u * D + 2 * rough) + eta).
  { eapply Rle_trans; [exact G|]. apply Rplus_le_compat_r, Rmult_le_compat_l; [rewrite U; lra | exact N]. }
  apply Rabs_le_inv in G'. pose proof (Rabs_pos r).
  replace (/ 2 ^ 48) with (32 * u) by (rewrite U; field).
  replace (/ 2 ^ 533) with (4 * rough).
  2: { unfold rough. replace (2 ^ 535) with (2 ^ 2 * 2 ^ 533) by (rewrite <- pow_add; reflexivity). rewrite Rinv_mult. replace (2 ^ 2) with 4 by ring. lra. }
  apply Rabs_le. rewrite U in *. lra.
Qed.
Lemma sum_err a b A B k l m n : 0 <= a -> 0 <= b -> 0 <= A -> 0 <= B -> 0 <= k <= 8 -> 0 <= l <= 8 -> 0 <= m <= 20 -> 0 <= n <= 20 ->
  Rabs (a - A) <= k * u * A + m * eta -> Rabs (b - B) <= l * u * B + n * eta ->
  0 <= rnd64 (a + b) /\ Rabs (rnd64 (a + b) - (A + B)) <= (Rmax k l + 2) * u * (A + B) + (m + n + 2) * eta.
Proof.
  intros Pa Pb PA PB K L M N Ea Eb. split; [apply rnd64_pos; lra|]. pose proof (err (a + b)) as E. rewrite (Rabs_right (a + b)) in E by lra.
  assert (U : u = / 9007199254740992) by reflexivity. pose proof eta_bound as H. apply Rabs_le_inv in Ea, Eb, E.
  pose proof (Rmax_l k l). pose proof (Rmax_r k l). set (x := Rmax k l) in *.
  assert (k * (u * A) <= x * (u * A)) by (apply Rmult_le_compat_r; [rewrite U; lra | assumption]).
  assert (l * (u * B) <= x * (u * B)) by (apply Rmult_le_compat_r; [rewrite U; lra | assumption]).
  assert (X8 : x <= 8) by (unfold x; apply Rmax_lub; lra).
  assert (u * (a + b) <= 2 * u * (A + B) + eta).
  { assert (x * (u * A) <= 8 * (u * A)) by (apply Rmult_le_compat_r; [rewrite U; lra | assumption]).
    assert (x * (u * B) <= 8 * (u * B)) by (apply Rmult_le_compat_r; [rewrite U; lra | assumption]).
    assert (m * eta <= 20 * eta) by (apply Rmult_le_compat_r; lra). assert (n * eta <= 20 * eta) by (apply Rmult_le_compat_r; lra).
    apply Rle_trans with (u * (A + B + 8 * (u * A) + 8 * (u * B) + 40 * eta)); [apply Rmult_le_compat_l; [rewrite U|]; lra | rewrite U; lra]. }
  apply Rabs_le. lra.
Qed.
Lemma disk_err xc yc r x y : Rabs (ddisk64 xc yc r [x; y] - (edist [x; y] [xc; yc] - r)) <= / 2 ^ 48 * (edist [x; y] [xc; yc] + Rabs r) + / 2 ^ 533.
Proof.
  unfold ddisk64. destruct (sq_err x xc) as [Px Ex], (sq_err y yc) as [Py Ey].
  assert (Hx : 0 <= (x - xc) ^ 2) by apply pow2_ge_0. assert (Hy : 0 <= (y - yc) ^ 2) by apply pow2_ge_0.
  destruct (sum_err _ _ _ _ 5 5 6 6 Px Py Hx Hy ltac:(lra) ltac:(lra) ltac:(lra) ltac:(lra) Ex Ey) as [PS ES].
  rewrite (Rmax_left 5 5) in ES by lra.
  apply final_err; [exact PS | apply sqrt_pos |]. unfold edist. rewrite sqrt_sqrt by (cbn; cbn in Hx, Hy; lra). cbn [sqdist]. rewrite Rplus_0_r.
  assert (0 < u) by (unfold u; lra). pose proof eta_bound. set (D := (x - xc) ^ 2 + (y - yc) ^ 2) in *. assert (0 <= u * D) by (apply Rmult_le_pos; unfold D; lra). lra.
Qed.
Lemma ball_err xc yc zc r x y z :
  Rabs (dball64 xc yc zc r [x; y; z] - (edist [x; y; z] [xc; yc; zc] - r)) <= / 2 ^ 48 * (edist [x; y; z] [xc; yc; zc] + Rabs r) + / 2 ^ 533.
Proof.
  unfold dball64. destruct (sq_err x xc) as [Px Ex], (sq_err y yc) as [Py Ey], (sq_err z zc) as [Pz Ez].
  assert (Hx : 0 <= (x - xc) ^ 2) by apply pow2_ge_0. assert (Hy : 0 <= (y - yc) ^ 2) by apply pow2_ge_0. assert (Hz : 0 <= (z - zc) ^ 2) by apply pow2_ge_0.
  destruct (sum_err _ _ _ _ 5 5 6 6 Px Py Hx Hy ltac:(lra) ltac:(lra) ltac:(lra) ltac:(lra) Ex Ey) as [PS ES]. rewrite (Rmax_left 5 5) in ES by lra.
  replace (5 + 2) with 7 in ES by lra. replace (6 + 6 + 2) with 14 in ES by lra.
  assert (Hxy : 0 <= (x - xc) ^ 2 + (y - yc) ^ 2) by lra.
  destruct (sum_err _ _ _ _ 7 5 14 6 PS Pz Hxy Hz ltac:(lra) ltac:(lra) ltac:(lra) ltac:(lra) ES Ez) as [PT ET]. rewrite (Rmax_left 7 5) in ET by lra.
  apply final_err; [exact PT | apply sqrt_pos |]. unfold edist. rewrite sqrt_sqrt by (cbn; cbn in Hx, Hy, Hz; lra). cbn [sqdist]. rewrite Rplus_0_r.
  rewrite <- Rplus_assoc.
  assert (0 < u) by (unfold u; lra). pose proof eta_bound. set (D := (x - xc) ^ 2 + (y - yc) ^ 2 + (z - zc) ^ 2) in *. assert (0 <= u * D) by (apply Rmult_le_pos; unfold D; lra). lra.
Qed.
