(** Euclidean distance on coordinate lists. *)
From Coq Require Import List Reals Lra Psatz Lia.
From Verif Require Import Spec.Geom.
Import ListNotations.
Local Open Scope R_scope.

Lemma sqdist_nonneg p : forall q, 0 <= sqdist p q.
Proof. induction p as [|x p IH]; intros [|y q]; cbn; try lra. specialize (IH q). pose proof (pow2_ge_0 (x - y)). cbn in *. lra. Qed.
Lemma sqdist_sym p : forall q, sqdist p q = sqdist q p.
Proof. induction p as [|x p IH]; intros [|y q]; cbn; try reflexivity. rewrite IH. ring. Qed.
Lemma sqdist_refl p : sqdist p p = 0.
Proof. induction p as [|x p IH]; cbn; [reflexivity|]. rewrite IH. ring. Qed.
Lemma edist_nonneg p q : 0 <= edist p q. Proof. apply sqrt_pos. Qed.
Lemma edist_sym p q : edist p q = edist q p. Proof. unfold edist. rewrite sqdist_sym. reflexivity. Qed.
Lemma edist_sq p q : edist p q ^ 2 = sqdist p q.
Proof. unfold edist. rewrite pow2_sqrt; [reflexivity|apply sqdist_nonneg]. Qed.

(** inner product of differences *)
Fixpoint ip (p q r : list R) : R :=
  match p, q, r with x :: p', y :: q', z :: r' => (x - y) * (y - z) + ip p' q' r' | _, _, _ => 0 end.

Lemma sqdist_ip p : forall q r, length p = length q -> length q = length r ->
  sqdist p r = sqdist p q + 2 * ip p q r + sqdist q r.
Proof.
  induction p as [|x p IH]; intros [|y q] [|z r] H1 H2; cbn in *; try discriminate; try lra.
  rewrite (IH q r) by congruence. ring.
Qed.

Lemma cs_step a b A B D : 0 <= A -> 0 <= B -> D * D <= A * B -> (a * b + D) * (a * b + D) <= (a * a + A) * (b * b + B).
Proof.
  intros HA HB HD.
  assert (K : 2 * (a * b * D) <= a * a * B + b * b * A).
  { assert (HX : 0 <= a * a * B + b * b * A) by nra.
    destruct (Rle_or_lt (2 * (a * b * D)) (a * a * B + b * b * A)) as [H|H]; [exact H|exfalso].
    assert (H1 : (a * a * B + b * b * A) * (a * a * B + b * b * A) < (2 * (a * b * D)) * (2 * (a * b * D))) by (apply Rmult_le_0_lt_compat; lra).
    assert (H2 : (2 * (a * b * D)) * (2 * (a * b * D)) <= 4 * ((a * b) * (a * b)) * (A * B)).
    { replace ((2 * (a * b * D)) * (2 * (a * b * D))) with (4 * ((a * b) * (a * b)) * (D * D)) by ring.
      apply Rmult_le_compat_l; [|exact HD]. nra. }
    assert (H3 : 0 <= (a * a * B - b * b * A) * (a * a * B - b * b * A)) by (apply Rle_0_sqr).
    nra. }
  nra.
Qed.

Lemma cauchy p : forall q r, length p = length q -> length q = length r -> ip p q r * ip p q r <= sqdist p q * sqdist q r.
Proof.
  induction p as [|x p IH]; intros [|y q] [|z r] H1 H2; cbn in *; try discriminate; try lra.
  replace ((x - y) * ((x - y) * 1)) with ((x - y) * (x - y)) by ring.
  replace ((y - z) * ((y - z) * 1)) with ((y - z) * (y - z)) by ring.
  apply cs_step; try apply sqdist_nonneg. apply IH; congruence.
Qed.

Lemma triangle p q r : length p = length q -> length q = length r -> edist p r <= edist p q + edist q r.
Proof.
  intros H1 H2. pose proof (edist_nonneg p q) as Ha. pose proof (edist_nonneg q r) as Hb.
  unfold edist at 1. rewrite <- (sqrt_square (edist p q + edist q r)) by lra.
  apply sqrt_le_1; [apply sqdist_nonneg|nra|].
  rewrite (sqdist_ip p q r H1 H2).
  pose proof (edist_sq p q) as E1. pose proof (edist_sq q r) as E2. rewrite <- E1, <- E2.
  pose proof (cauchy p q r H1 H2) as C. rewrite <- E1, <- E2 in C.
  assert (ip p q r <= edist p q * edist q r).
  { destruct (Rle_or_lt (ip p q r) (edist p q * edist q r)) as [L|L]; [exact L|exfalso].
    assert (0 <= edist p q * edist q r) by nra.
    assert ((edist p q * edist q r) * (edist p q * edist q r) < ip p q r * ip p q r) by (apply Rmult_le_0_lt_compat; lra). nra. }
  nra.
Qed.

Lemma coord_le p : forall q d, length p = length q -> 0 <= d -> sqdist p q <= d * d -> Forall2 (fun x y => Rabs (x - y) <= d) p q.
Proof.
  induction p as [|x p IH]; intros [|y q] d HL Hd H; cbn in *; try discriminate; constructor.
  - pose proof (sqdist_nonneg p q). assert (Hx : (x - y) * (x - y) <= d * d) by nra.
    unfold Rabs; destruct (Rcase_abs (x - y)); nra.
  - apply IH; [congruence|exact Hd|]. pose proof (pow2_ge_0 (x - y)). cbn in *. lra.
Qed.
Lemma coord_le_edist p q : length p = length q -> Forall2 (fun x y => Rabs (x - y) <= edist p q) p q.
Proof.
  intros HL. apply coord_le; [exact HL|apply edist_nonneg|]. pose proof (edist_sq p q). cbn in H. lra.
Qed.

(** distance to a sphere *)
Definition toward (p c : list R) (s : R) : list R := map (fun a => snd a + s * (fst a - snd a)) (combine p c).

Lemma toward_length p c s : length p = length c -> length (toward p c s) = length c.
Proof. intros H. unfold toward. rewrite map_length, combine_length. lia. Qed.

Lemma toward_center p : forall c s, length p = length c -> sqdist (toward p c s) c = s * s * sqdist p c.
Proof.
  induction p as [|x p IH]; intros [|y c] s H; cbn in *; try discriminate; try ring.
  change (map (fun a => snd a + s * (fst a - snd a)) (combine p c)) with (toward p c s). rewrite IH by congruence. ring.
Qed.
Lemma toward_self p : forall c s, length p = length c -> sqdist p (toward p c s) = (1 - s) * (1 - s) * sqdist p c.
Proof.
  induction p as [|x p IH]; intros [|y c] s H; cbn in *; try discriminate; try ring.
  change (map (fun a => snd a + s * (fst a - snd a)) (combine p c)) with (toward p c s). rewrite IH by congruence. ring.
Qed.

Lemma sqdist_zero p : forall q, length p = length q -> sqdist p q = 0 -> p = q.
Proof.
  induction p as [|x p IH]; intros [|y q] HL H; cbn in *; try discriminate; [reflexivity|].
  pose proof (sqdist_nonneg p q). pose proof (pow2_ge_0 (x - y)) as Hs. cbn in Hs.
  assert (E1 : (x - y) * (x - y) = 0) by lra. assert (E2 : sqdist p q = 0) by lra.
  f_equal; [nra|]. apply IH; [congruence|exact E2].
Qed.

Lemma sphere_distance p c r : c <> [] -> length p = length c -> 0 <= r ->
  is_distance p (sphere c r) (Rabs (edist p c - r)).
Proof.
  intros Hc HL Hr. split.
  - intros q (Hq & Eq). pose proof (triangle p q c ltac:(congruence) ltac:(congruence)) as T1.
    pose proof (triangle q p c ltac:(congruence) HL) as T2. rewrite (edist_sym q p) in T2.
    rewrite Eq in T1, T2. unfold Rabs. destruct (Rcase_abs _); lra.
  - destruct (Req_dec (edist p c) 0) as [E|E].
    + assert (p = c) as ->.
      { apply sqdist_zero; [exact HL|]. rewrite <- edist_sq, E. ring. }
      destruct c as [|c0 c]; [congruence|]. exists ((c0 + r) :: c).
      assert (Hs : forall u v, sqdist (u :: c) (v :: c) = (u - v) ^ 2) by (intros; cbn [sqdist]; rewrite sqdist_refl; ring).
      split; [split; [reflexivity|]|].
      * unfold edist. rewrite Hs. replace ((c0 + r - c0) ^ 2) with (r ^ 2) by ring. rewrite sqrt_pow2; lra.
      * unfold edist. rewrite Hs. replace ((c0 - (c0 + r)) ^ 2) with (r ^ 2) by ring.
        rewrite sqrt_pow2 by lra. rewrite Hs. replace ((c0 - c0) ^ 2) with 0 by ring. rewrite sqrt_0.
        rewrite Rabs_left1 by lra. ring.
    + pose proof (edist_nonneg p c) as Hn. set (rho := edist p c) in *. assert (Hrho : 0 < rho) by lra.
      assert (Esq : sqdist p c = rho * rho) by (unfold rho; rewrite <- (edist_sq p c); ring).
      exists (toward p c (r / rho)). split; [split; [apply toward_length; exact HL|]|].
      * unfold edist. rewrite toward_center by exact HL. rewrite Esq.
        replace (r / rho * (r / rho) * (rho * rho)) with (r * r) by (field; lra). rewrite sqrt_square; lra.
      * unfold edist. rewrite toward_self by exact HL. rewrite Esq.
        replace ((1 - r / rho) * (1 - r / rho) * (rho * rho)) with (Rsqr (rho - r)) by (unfold Rsqr; field; lra).
        apply sqrt_Rsqr_abs.
Qed.
