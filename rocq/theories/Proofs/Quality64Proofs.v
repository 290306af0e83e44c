(** Rounding errors of simp_qual. *)
From Coq Require Import List ZArith Reals Bool Arith Lia Lra Psatz.
From Flocq Require Import Core Relative.
From Verif Require Import Model.Base Model.FastHJ Model.SDF Model.Round Model.Simplex Model.Mesh Model.Laplace64 Model.Quality64 Spec.Geom Proofs.ListAux Proofs.GridIndex
  Proofs.SnapProofs Proofs.RoundProofs.
Import ListNotations.
Local Open Scope R_scope.

(** x = y times a factor between exp(-t) and exp t *)
Definition near (t x y : R) : Prop := 0 < y /\ y * exp (- t) <= x <= y * exp t.
Lemma near_pos t x y : near t x y -> 0 < x.
Proof. intros (P & L & _). eapply Rlt_le_trans; [|exact L]. apply Rmult_lt_0_compat; [exact P|apply exp_pos]. Qed.
Lemma near_le s t x y : near s x y -> s <= t -> near t x y.
Proof.
  intros (P & L & U) H. split; [exact P|]. split; [eapply Rle_trans; [|exact L]|eapply Rle_trans; [exact U|]]; apply Rmult_le_compat_l; try lra.
  - destruct (Req_dec s t) as [->|]; [lra|left; apply exp_increasing; lra].
  - destruct (Req_dec s t) as [->|]; [lra|left; apply exp_increasing; lra].
Qed.
Lemma near_mul s t a b c d : near s a b -> near t c d -> near (s + t) (a * c) (b * d).
Proof.
  intros A C. pose proof (near_pos _ _ _ A) as PA. pose proof (near_pos _ _ _ C) as PC. destruct A as (P & L & U), C as (Q & M & V).
  split; [apply Rmult_lt_0_compat; assumption|]. rewrite Ropp_plus_distr, !exp_plus. pose proof (exp_pos (- s)). pose proof (exp_pos (- t)). split.
  - replace (b * d * (exp (- s) * exp (- t))) with ((b * exp (- s)) * (d * exp (- t))) by ring. apply Rmult_le_compat; try assumption; left; apply Rmult_lt_0_compat; assumption.
  - replace (b * d * (exp s * exp t)) with ((b * exp s) * (d * exp t)) by ring. apply Rmult_le_compat; try assumption; lra.
Qed.
Lemma near_inv t x y : near t x y -> near t (/ x) (/ y).
Proof.
  intros H. pose proof (near_pos _ _ _ H) as PX. destruct H as (P & L & U). split; [apply Rinv_0_lt_compat, P|]. split.
  - rewrite exp_Ropp, <- Rinv_mult. apply Rinv_le_contravar; assumption.
  - replace (exp t) with (/ exp (- t)) by (rewrite exp_Ropp, Rinv_inv; reflexivity). rewrite <- Rinv_mult. apply Rinv_le_contravar; [|exact L]. apply Rmult_lt_0_compat; [exact P|apply exp_pos].
Qed.
Lemma near_div s t a b c d : near s a b -> near t c d -> near (s + t) (a / c) (b / d).
Proof. intros A C. apply near_mul; [exact A|apply near_inv, C]. Qed.
Lemma near_sqrt t x y : near t x y -> near (t / 2) (sqrt x) (sqrt y).
Proof.
  intros (P & L & U). split; [apply sqrt_lt_R0, P|].
  assert (forall r, sqrt y * exp (r / 2) = sqrt (y * exp r)) as E.
  { intros r. rewrite sqrt_mult; [|lra|left; apply exp_pos]. f_equal. replace r with (r / 2 + r / 2) at 2 by field. rewrite exp_plus. symmetry. apply sqrt_square. left. apply exp_pos. }
  replace (- (t / 2)) with (- t / 2) by field. rewrite !E. split; apply sqrt_le_1_alt; assumption.
Qed.
Lemma near_add t a b c d : near t a b -> near t c d -> near t (a + c) (b + d).
Proof. intros (P & L & U) (Q & M & V). split; [lra|]. rewrite !Rmult_plus_distr_r. lra. Qed.
Lemma near_scale t k x y : 0 < k -> near t x y -> near t (k * x) (k * y).
Proof. intros K H. replace t with (0 + t) by ring. apply near_mul; [|exact H]. split; [exact K|]. rewrite Ropp_0, exp_0. lra. Qed.
Lemma exp_up t : t <= / 2 -> exp t <= 1 + 2 * t \/ t < 0.
Proof.
  intros H. destruct (Rlt_dec t 0) as [N|N]; [right; exact N|left]. apply Rnot_lt_le in N.
  pose proof (exp_ineq1_le (- t)) as E. replace (exp t) with (/ exp (- t)) by (rewrite exp_Ropp, Rinv_inv; reflexivity).
  apply Rle_trans with (/ (1 - t)); [apply Rinv_le_contravar; lra|]. apply (Rmult_le_reg_r (1 - t)); [lra|]. rewrite Rinv_l by lra. nra.
Qed.
Lemma near_abs t x y : 0 <= t <= / 2 -> near t x y -> Rabs (x - y) <= 2 * t * y.
Proof.
  intros [T0 T1] (P & L & U). destruct (exp_up t T1) as [E|]; [|lra]. pose proof (exp_ineq1_le (- t)) as F. apply Rabs_le. split.
  - assert (y * (1 + - t) <= y * exp (- t)) by (apply Rmult_le_compat_l; lra). assert (0 <= y * t) by (apply Rmult_le_pos; lra). lra.
  - assert (y * exp t <= y * (1 + 2 * t)) by (apply Rmult_le_compat_l; lra). lra.
Qed.
Lemma abs_near e x y : 0 < y -> 0 <= e <= / 2 -> Rabs (x - y) <= e * y -> near (2 * e) x y.
Proof.
  intros P [E0 E1] H. apply Rabs_le_inv in H. pose proof (exp_ineq1_le (2 * e)) as F. split; [exact P|]. split.
  - assert (exp (- (2 * e)) <= 1 - e) as G.
    { rewrite exp_Ropp. apply Rle_trans with (/ (1 + 2 * e)); [apply Rinv_le_contravar; lra|]. apply (Rmult_le_reg_r (1 + 2 * e)); [lra|]. rewrite Rinv_l by lra. nra. }
    assert (y * exp (- (2 * e)) <= y * (1 - e)) by (apply Rmult_le_compat_l; lra). lra.
  - assert (y * (1 + 2 * e) <= y * exp (2 * e)) by (apply Rmult_le_compat_l; lra). assert (0 <= e * y) by (apply Rmult_le_pos; lra). lra.
Qed.
Lemma rel_err x : / 2 ^ 1020 <= Rabs x -> Rabs (rnd64 x - x) <= u * Rabs x.
Proof.
  intros H. unfold rnd64. pose proof (relative_error_N_FLT radix2 (-1074) 53 ltac:(reflexivity) (fun z => negb (Z.even z)) x) as E.
  replace u with (/ 2 * bpow radix2 (- 53 + 1)); [apply E|unfold u; cbn; lra].
  eapply Rle_trans; [|exact H]. change (-1074 + 53 - 1)%Z with (-1022)%Z. rewrite bpow_opp with (e := 1022%Z). rewrite <- (IZR_Zpower radix2 1022) by lia. rewrite (pow_IZR 2 1020).
  apply Rinv_le_contravar; [apply (IZR_lt 0); reflexivity|]. apply IZR_le. discriminate.
Qed.
Lemma pow_le m n : (m <= n)%nat -> 0 < / 2 ^ n <= / 2 ^ m.
Proof. intros H. split; [apply Rinv_0_lt_compat, pow_lt; lra|]. apply Rinv_le_contravar; [apply pow_lt; lra|]. apply Rle_pow; [lra|exact H]. Qed.
Lemma near_rnd t x y : 0 <= t <= / 2 -> / 2 ^ 1000 <= y -> near t x y -> near (t + 2 * u) (rnd64 x) y.
Proof.
  intros T Y H. pose proof (near_pos _ _ _ H) as PX. assert (near (2 * u) (rnd64 x) x) as A.
  { apply abs_near; [exact PX|unfold u; lra|]. pose proof (rel_err x) as E. rewrite (Rabs_pos_eq x) in E by lra. apply E.
    destruct H as (P & L & _). pose proof (exp_ineq1_le (- t)) as F. assert (y * / 2 <= y * exp (- t)) by (apply Rmult_le_compat_l; lra).
    apply Rle_trans with (/ 2 ^ 1001); [apply pow_le; lia|]. replace (/ 2 ^ 1001) with (/ 2 ^ 1000 * / 2); [lra|]. rewrite <- Rinv_mult. f_equal. change (2 ^ 1001) with (2 * 2 ^ 1000). ring. }
  destruct H as (P & L & U), A as (_ & M & V). split; [exact P|]. rewrite Ropp_plus_distr, !exp_plus. pose proof (exp_pos (- (2 * u))). pose proof (exp_pos (2 * u)). split.
  - eapply Rle_trans; [|exact M]. rewrite <- Rmult_assoc. apply Rmult_le_compat_r; lra.
  - eapply Rle_trans; [exact V|]. rewrite <- Rmult_assoc. apply Rmult_le_compat_r; lra.
Qed.

(** lengths *)
Lemma rnd64_idem x : rnd64 (rnd64 x) = rnd64 x.
Proof. unfold rnd64. apply round_generic; [typeclasses eauto|]. apply generic_format_round; [apply FLT_exp_valid; reflexivity|typeclasses eauto]. Qed.
Lemma len64_form p q : length p = length q -> (length q = 2 \/ length q = 3)%nat ->
  len64 p q = match p, q with [x; y], [a; b] => ddisk64 a b 0 [x; y] | [x; y; z], [a; b; c] => dball64 a b c 0 [x; y; z] | _, _ => 0 end.
Proof.
  intros LP LQ. unfold len64, sq64, sum64. assert (forall x, rnd64 (0 + rnd64 x) = rnd64 x) as I by (intros; rewrite Rplus_0_l; apply rnd64_idem).
  destruct q as [|a [|b [|c [|]]]]; cbn [length] in *; try lia; destruct p as [|x [|y [|z [|]]]]; cbn [length] in *; try lia; cbn [map2 combine map fst snd fold_left].
  - unfold ddisk64, sqdiff64. rewrite I, Rminus_0_r, rnd64_idem. reflexivity.
  - unfold dball64, sqdiff64. rewrite I, Rminus_0_r, rnd64_idem. reflexivity.
Qed.
Lemma sub_len_edist p q : length p = length q -> sub_len p q = edist p q.
Proof.
  unfold sub_len, edist. intros L. f_equal. revert q L. induction p as [|x p IH]; intros [|y q] L; cbn [length] in L; try discriminate; [reflexivity|].
  cbn [map2 combine map fst snd fold_right sqdist]. unfold map2 in IH. rewrite IH by lia. ring.
Qed.
Lemma len64_err p q : length p = length q -> (length q = 2 \/ length q = 3)%nat -> Rabs (len64 p q - edist p q) <= / 2 ^ 48 * edist p q + / 2 ^ 533.
Proof.
  intros LP LQ. rewrite len64_form by assumption.
  destruct q as [|a [|b [|c [|]]]]; cbn [length] in *; try lia; destruct p as [|x [|y [|z [|]]]]; cbn [length] in *; try lia.
  - pose proof (disk_err a b 0 x y) as E. rewrite Rminus_0_r, Rabs_R0, Rplus_0_r in E. exact E.
  - pose proof (ball_err a b c 0 x y z) as E. rewrite Rminus_0_r, Rabs_R0, Rplus_0_r in E. exact E.
Qed.
Lemma len64_near p q : length p = length q -> (length q = 2 \/ length q = 3)%nat -> / 2 ^ 100 <= edist p q -> near (66 * u) (len64 p q) (edist p q).
Proof.
  intros LP LQ L. pose proof (len64_err p q LP LQ) as E. replace (66 * u) with (2 * (33 * u)) by ring. pose proof (pow_le 100 100 ltac:(lia)) as [PP _].
  apply abs_near; [lra|unfold u; lra|]. eapply Rle_trans; [exact E|].
  assert (/ 2 ^ 533 <= u * edist p q).
  { apply Rle_trans with (u * / 2 ^ 100); [|apply Rmult_le_compat_l; [unfold u; lra|exact L]]. unfold u. replace 9007199254740992 with (2 ^ 53) by ring. rewrite <- Rinv_mult, <- pow_add. apply pow_le. lia. }
  replace (/ 2 ^ 48) with (32 * u) by (unfold u; replace (2 ^ 48) with 281474976710656 by ring; lra). lra.
Qed.

Lemma lb_mul m n x y : / 2 ^ m <= x -> / 2 ^ n <= y -> / 2 ^ (m + n) <= x * y.
Proof. intros A B. rewrite pow_add, Rinv_mult. apply Rmult_le_compat; try assumption; left; apply Rinv_0_lt_compat, pow_lt; lra. Qed.
Lemma lb_div m n x y : / 2 ^ m <= x -> 0 < y <= 2 ^ n -> / 2 ^ (m + n) <= x / y.
Proof. intros A [P B]. apply lb_mul; [exact A|]. apply Rinv_le_contravar; [exact P|exact B]. Qed.
Lemma lb_sqrt m x : / 2 ^ (m + m) <= x -> / 2 ^ m <= sqrt x.
Proof.
  intros A. replace (/ 2 ^ m) with (sqrt (/ 2 ^ (m + m))); [apply sqrt_le_1_alt, A|]. rewrite pow_add, Rinv_mult. apply sqrt_square. left. apply Rinv_0_lt_compat, pow_lt. lra.
Qed.
Lemma lb_le m n x : / 2 ^ m <= x -> (m <= n)%nat -> / 2 ^ n <= x.
Proof. intros A L. eapply Rle_trans; [apply pow_le, L|exact A]. Qed.

(** the differences *)
Lemma gap_near k th a b c a' b' c' : 0 <= k <= 100 -> / 2 ^ 40 <= th -> 0 < a -> 0 < b -> 0 < c ->
  near (k * u) a' a -> near (k * u) b' b -> near (k * u) c' c -> th * (a + b + c) <= b + c - a -> / 2 ^ 100 <= b -> / 2 ^ 100 <= c ->
  near ((4 * k + 10) * (u / th)) (rnd64 (rnd64 (b' + c') - a')) (b + c - a).
Proof.
  intros K TH PA PB PC NA NB NC G LB LC. assert (U : u = / 9007199254740992) by reflexivity. set (s := a + b + c) in *.
  assert (T1 : th <= 1). { apply (Rmult_le_reg_r s); [unfold s; lra|]. unfold s in *. lra. }
  assert (TP : 0 < th) by (eapply Rlt_le_trans; [|exact TH]; apply Rinv_0_lt_compat, pow_lt; lra).
  assert (I1 : 1 <= / th). { rewrite <- Rinv_1. apply Rinv_le_contravar; lra. }
  assert (I2 : / th <= 2 ^ 40). { rewrite <- (Rinv_inv (2 ^ 40)). apply Rinv_le_contravar; [apply Rinv_0_lt_compat, pow_lt; lra|exact TH]. }
  assert (UT : u <= u / th <= / 8192). { unfold Rdiv. replace (2 ^ 40) with 1099511627776 in I2 by ring. rewrite U. split; lra. }
  assert (NS : near ((k + 2) * u) (rnd64 (b' + c')) (b + c)).
  { replace ((k + 2) * u) with (k * u + 2 * u) by ring. apply near_rnd; [rewrite U; lra| |apply near_add; assumption]. apply Rle_trans with (/ 2 ^ 100); [apply pow_le; lia|lra]. }
  apply near_abs in NS; [|rewrite U; lra]. apply near_abs in NA; [|rewrite U; lra].
  set (bc := rnd64 (b' + c')) in *. assert (UP : 0 < u) by (rewrite U; lra).
  assert (E : Rabs ((bc - a') - (b + c - a)) <= ((2 * k + 4) * (u / th)) * (b + c - a)).
  { apply Rle_trans with ((2 * k + 4) * u * s).
    - replace ((bc - a') - (b + c - a)) with ((bc - (b + c)) + - (a' - a)) by ring. eapply Rle_trans; [apply Rabs_triang|]. rewrite Rabs_Ropp.
      assert (0 <= 4 * u * a) by (apply Rmult_le_pos; lra). unfold s. lra.
    - replace ((2 * k + 4) * u * s) with (((2 * k + 4) * (u / th)) * (th * s)) by (field; lra). apply Rmult_le_compat_l; [|exact G]. apply Rmult_le_pos; [lra|]. lra. }
  assert (N1 : near (2 * ((2 * k + 4) * (u / th))) (bc - a') (b + c - a)).
  { apply abs_near; [|split; [apply Rmult_le_pos; lra|]|exact E].
    - eapply Rlt_le_trans; [|exact G]. apply Rmult_lt_0_compat; [exact TP|unfold s; lra].
    - apply Rle_trans with (204 * / 8192); [|lra]. apply Rmult_le_compat; lra. }
  apply near_le with (2 * ((2 * k + 4) * (u / th)) + 2 * u); [|lra].
  apply near_rnd; [split; [apply Rmult_le_pos; [lra|]; apply Rmult_le_pos; lra|]| |exact N1].
  - assert ((2 * k + 4) * (u / th) <= 204 * / 8192) by (apply Rmult_le_compat; lra). lra.
  - apply Rle_trans with (/ 2 ^ (40 + 100)); [apply pow_le; lia|]. eapply Rle_trans; [|exact G]. apply lb_mul; [exact TH|unfold s; lra].
Qed.

(** the whole expression *)
Definition exact_quality (a b c : R) : R :=
  2 * (5 / 10 * sqrt ((b + c - a) * (c + a - b) * (a + b - c) / (a + b + c))) / (a * b * c / sqrt ((a + b + c) * (b + c - a) * (c + a - b) * (a + b - c))).
Lemma quality_near th a b c a' b' c' : / 2 ^ 40 <= th -> (forall l, In l [a; b; c] -> / 2 ^ 100 <= l <= 2 ^ 100) ->
  near (66 * u) a' a -> near (66 * u) b' b -> near (66 * u) c' c ->
  (forall g, In g [b + c - a; c + a - b; a + b - c] -> th * (a + b + c) <= g) ->
  exists q, quality64 a' b' c' = QNum q /\ near (1024 * (u / th)) q (exact_quality a b c).
Proof.
  intros TH SZ NA NB NC HG. assert (U : u = / 9007199254740992) by reflexivity.
  destruct (SZ a ltac:(cbn; tauto)) as [La Ua], (SZ b ltac:(cbn; tauto)) as [Lb Ub], (SZ c ltac:(cbn; tauto)) as [Lc Uc].
  pose proof (HG (b + c - a) ltac:(cbn; tauto)) as Gx. pose proof (HG (c + a - b) ltac:(cbn; tauto)) as Gy. pose proof (HG (a + b - c) ltac:(cbn; tauto)) as Gz. clear HG SZ.
  assert (P0 : 0 < / 2 ^ 100) by (apply Rinv_0_lt_compat, pow_lt; lra).
  assert (PA : 0 < a) by lra. assert (PB : 0 < b) by lra. assert (PC : 0 < c) by lra.
  pose proof (gap_near 66 th a b c a' b' c' ltac:(lra) TH PA PB PC NA NB NC Gx Lb Lc) as Nx.
  pose proof (gap_near 66 th b c a b' c' a' ltac:(lra) TH PB PC PA NB NC NA ltac:(replace (b + c + a) with (a + b + c) by ring; exact Gy) Lc La) as Ny.
  pose proof (gap_near 66 th c a b c' a' b' ltac:(lra) TH PC PA PB NC NA NB ltac:(replace (c + a + b) with (a + b + c) by ring; exact Gz) La Lb) as Nz.
  assert (TP : 0 < th) by (eapply Rlt_le_trans; [|exact TH]; apply Rinv_0_lt_compat, pow_lt; lra).
  assert (T3 : 3 * th <= 1). { apply (Rmult_le_reg_r (a + b + c)); lra. }
  assert (I1 : 3 <= / th). { apply (Rmult_le_reg_r th); [lra|]. rewrite Rinv_l by lra. exact T3. }
  assert (I2 : / th <= 2 ^ 40). { rewrite <- (Rinv_inv (2 ^ 40)). apply Rinv_le_contravar; [apply Rinv_0_lt_compat, pow_lt; lra|exact TH]. }
  set (w := u / th) in *. assert (UW : 3 * u <= w <= / 8192). { unfold w, Rdiv. replace (2 ^ 40) with 1099511627776 in I2 by ring. rewrite U. split; lra. }
  assert (UP : 0 < u) by (rewrite U; lra).
  replace ((4 * 66 + 10) * w) with (274 * w) in * by ring.
  unfold quality64, exact_quality.
  set (x' := rnd64 (rnd64 (b' + c') - a')) in *. set (y' := rnd64 (rnd64 (c' + a') - b')) in *. set (z' := rnd64 (rnd64 (a' + b') - c')) in *.
  assert (Lx : / 2 ^ 140 <= b + c - a) by (eapply Rle_trans; [|exact Gx]; apply (lb_mul 40 100); [exact TH|lra]).
  assert (Ly : / 2 ^ 140 <= c + a - b) by (eapply Rle_trans; [|exact Gy]; apply (lb_mul 40 100); [exact TH|lra]).
  assert (Lz : / 2 ^ 140 <= a + b - c) by (eapply Rle_trans; [|exact Gz]; apply (lb_mul 40 100); [exact TH|lra]).
  assert (Ls : / 2 ^ 100 <= a + b + c) by lra. assert (E2 : 2 ^ 102 = 4 * 2 ^ 100) by (change (2 ^ 102) with (2 * (2 * 2 ^ 100)); ring). pose proof (pow_lt 2 100 ltac:(lra)) as P100.
  assert (Us : a + b + c <= 2 ^ 102) by lra.
  set (x := b + c - a) in *. set (y := c + a - b) in *. set (z := a + b - c) in *.
  set (s' := rnd64 (rnd64 (a' + b') + c')). set (s := a + b + c) in *.
  assert (Ns : near (70 * u) s' s).
  { unfold s', s. replace (70 * u) with (68 * u + 2 * u) by ring. apply near_rnd; [lra|eapply lb_le; [exact Ls|lia]|]. apply near_add; [|apply near_le with (66 * u); [exact NC|lra]].
    replace (68 * u) with (66 * u + 2 * u) by ring. apply near_rnd; [lra|apply (lb_le 100); [lra|lia]|]. apply near_add; assumption. }
  rewrite (proj2 (Reqb_false s' 0)) by (pose proof (near_pos _ _ _ Ns); lra).
  assert (Nxy : near (548 * w + 2 * u) (rnd64 (x' * y')) (x * y)).
  { apply near_rnd; [lra|apply (lb_le 280); [apply (lb_mul 140 140); assumption|lia]|]. replace (548 * w) with (274 * w + 274 * w) by ring. apply near_mul; assumption. }
  assert (Nxyz : near (822 * w + 4 * u) (rnd64 (rnd64 (x' * y') * z')) (x * y * z)).
  { replace (822 * w + 4 * u) with ((548 * w + 2 * u) + 274 * w + 2 * u) by ring. apply near_rnd; [lra|apply (lb_le 420); [apply (lb_mul 280 140); [apply (lb_mul 140 140)|]; assumption|lia]|]. apply near_mul; assumption. }
  set (v' := rnd64 (rnd64 (rnd64 (x' * y') * z') / s')).
  assert (Lv : / 2 ^ 522 <= x * y * z / s). { apply (lb_div 420 102); [apply (lb_mul 280 140); [apply (lb_mul 140 140)|]; assumption|split; [lra|exact Us]]. }
  assert (Nv : near (822 * w + 76 * u) v' (x * y * z / s)).
  { unfold v'. replace (822 * w + 76 * u) with ((822 * w + 4 * u) + 70 * u + 2 * u) by ring. apply near_rnd; [lra|eapply lb_le; [exact Lv|lia]|]. apply near_div; assumption. }
  set (w' := rnd64 (rnd64 (rnd64 (s' * x') * y') * z')).
  assert (Lw : / 2 ^ 520 <= s * x * y * z). { apply (lb_mul 380 140); [apply (lb_mul 240 140); [apply (lb_mul 100 140)|]|]; assumption. }
  assert (Nw : near (822 * w + 76 * u) w' (s * x * y * z)).
  { unfold w'. replace (822 * w + 76 * u) with ((548 * w + 74 * u) + 274 * w + 2 * u) by ring. apply near_rnd; [lra|eapply lb_le; [exact Lw|lia]|]. apply near_mul; [|assumption].
    replace (548 * w + 74 * u) with ((274 * w + 72 * u) + 274 * w + 2 * u) by ring. apply near_rnd; [lra|apply (lb_le 380); [apply (lb_mul 240 140); [apply (lb_mul 100 140)|]; assumption|lia]|]. apply near_mul; [|assumption].
    replace (274 * w + 72 * u) with (70 * u + 274 * w + 2 * u) by ring. apply near_rnd; [lra|apply (lb_le 240); [apply (lb_mul 100 140); assumption|lia]|]. apply near_mul; assumption. }
  rewrite (proj2 (Rltb_false v' 0)) by (pose proof (near_pos _ _ _ Nv); lra). rewrite (proj2 (Rltb_false w' 0)) by (pose proof (near_pos _ _ _ Nw); lra). cbn [orb].
  assert (Nd : near (411 * w + 40 * u) (rnd64 (sqrt w')) (sqrt (s * x * y * z))).
  { replace (411 * w + 40 * u) with ((822 * w + 76 * u) / 2 + 2 * u) by field. apply near_rnd; [lra|apply (lb_le 260); [apply (lb_sqrt 260), Lw|lia]|]. apply near_sqrt, Nw. }
  assert (Nm : near (202 * u) (rnd64 (rnd64 (a' * b') * c')) (a * b * c)).
  { replace (202 * u) with ((134 * u) + 66 * u + 2 * u) by ring. apply near_rnd; [lra|apply (lb_le 300); [apply (lb_mul 200 100); [apply (lb_mul 100 100)|]; assumption|lia]|]. apply near_mul; [|exact NC].
    replace (134 * u) with (66 * u + 66 * u + 2 * u) by ring. apply near_rnd; [lra|apply (lb_le 200); [apply (lb_mul 100 100); assumption|lia]|]. apply near_mul; assumption. }
  assert (Lr : / 2 ^ 262 <= 5 / 10 * sqrt (x * y * z / s)).
  { replace (5 / 10) with (/ 2 ^ 1) by lra. apply (lb_mul 1 261); [lra|]. apply (lb_sqrt 261), Lv. }
  assert (Nr : near (411 * w + 42 * u) (rnd64 (1 / 2 * rnd64 (sqrt v'))) (5 / 10 * sqrt (x * y * z / s))).
  { replace (5 / 10) with (1 / 2) in * by lra. replace (411 * w + 42 * u) with ((411 * w + 40 * u) + 2 * u) by ring. apply near_rnd; [lra|eapply lb_le; [exact Lr|lia]|]. apply near_scale; [lra|].
    replace (411 * w + 40 * u) with ((822 * w + 76 * u) / 2 + 2 * u) by field. apply near_rnd; [lra|apply (lb_le 261); [apply (lb_sqrt 261), Lv|lia]|]. apply near_sqrt, Nv. }
  set (r' := rnd64 (1 / 2 * rnd64 (sqrt v'))) in *. set (d' := rnd64 (sqrt w')) in *. set (m' := rnd64 (rnd64 (a' * b') * c')) in *.
  rewrite (proj2 (Reqb_false d' 0)) by (pose proof (near_pos _ _ _ Nd); lra).
  assert (Ud : sqrt (s * x * y * z) <= 2 ^ 210).
  { rewrite <- (sqrt_square (2 ^ 210)) by (apply Rlt_le, pow_lt; lra). apply sqrt_le_1_alt. rewrite <- pow_add.
    assert (Pw : 0 < 2 ^ 102) by (apply pow_lt; lra).
    assert (P140 : 0 < / 2 ^ 140) by (apply Rinv_0_lt_compat, pow_lt; lra).
    assert (Ux : 0 <= x <= 2 ^ 102) by (unfold x in *; lra). assert (Uy : 0 <= y <= 2 ^ 102) by (unfold y in *; lra). assert (Uz : 0 <= z <= 2 ^ 102) by (unfold z in *; lra).
    apply Rle_trans with (2 ^ 102 * 2 ^ 102 * 2 ^ 102 * 2 ^ 102).
    - assert (0 <= s <= 2 ^ 102) by (unfold s in *; lra). assert (0 <= s * x) by (apply Rmult_le_pos; lra). assert (0 <= s * x * y) by (apply Rmult_le_pos; lra).
      apply Rmult_le_compat; [lra|lra| |lra]. apply Rmult_le_compat; [lra|lra| |lra]. apply Rmult_le_compat; lra.
    - rewrite <- !pow_add. apply Rle_pow; [lra|lia]. }
  assert (Pd : 0 < sqrt (s * x * y * z)) by (destruct Nd; assumption).
  assert (Nk : near (411 * w + 244 * u) (rnd64 (m' / d')) (a * b * c / sqrt (s * x * y * z))).
  { replace (411 * w + 244 * u) with (202 * u + (411 * w + 40 * u) + 2 * u) by ring. apply near_rnd; [lra|apply (lb_le 510); [apply (lb_div 300 210); [apply (lb_mul 200 100); [apply (lb_mul 100 100)|]; assumption|split; assumption]|lia]|]. apply near_div; assumption. }
  rewrite (proj2 (Reqb_false (rnd64 (m' / d')) 0)) by (pose proof (near_pos _ _ _ Nk); lra).
  eexists. split; [reflexivity|].
  apply near_le with ((411 * w + 44 * u) + (411 * w + 244 * u) + 2 * u); [|lra].
  apply near_rnd; [lra| |apply near_div; [|exact Nk]].
  - apply (lb_le (261 + 560)); [|lia]. apply (lb_div 261 560).
    + apply Rle_trans with (2 * / 2 ^ 262); [|lra]. replace (/ 2 ^ 261) with (2 * / 2 ^ 262); [lra|]. change (2 ^ 262) with (2 * 2 ^ 261). field.
    + split; [destruct Nk; assumption|]. apply Rle_trans with (2 ^ 300 / / 2 ^ 260).
      * unfold Rdiv. apply Rmult_le_compat.
        -- left. repeat apply Rmult_lt_0_compat; assumption.
        -- left. apply Rinv_0_lt_compat, Pd.
        -- replace (2 ^ 300) with (2 ^ 100 * 2 ^ 100 * 2 ^ 100) by (rewrite <- !pow_add; reflexivity). assert (0 <= a * b) by (apply Rmult_le_pos; lra). apply Rmult_le_compat; [lra|lra| |lra]. apply Rmult_le_compat; lra.
        -- apply Rinv_le_contravar; [apply Rinv_0_lt_compat, pow_lt; lra|apply (lb_sqrt 260), Lw].
      * unfold Rdiv. rewrite Rinv_inv, <- pow_add. apply Rle_refl.
  - replace (411 * w + 44 * u) with ((411 * w + 42 * u) + 2 * u) by ring. apply near_rnd; [lra| |apply near_scale; [lra|exact Nr]]. apply (lb_le 262); [lra|lia].
Qed.

(** ---- upper bound for triangles of any shape ---- *)
Definition upto (t x y : R) : Prop := 0 <= x /\ 0 < y /\ x <= y * exp t.
Lemma near_upto t x y : near t x y -> upto t x y.
Proof. intros H. pose proof (near_pos _ _ _ H). destruct H as (P & _ & U). repeat split; try lra. Qed.
Lemma upto_mul s t a b c d : upto s a b -> upto t c d -> upto (s + t) (a * c) (b * d).
Proof.
  intros (A & B & U) (C & D & V). repeat split; [apply Rmult_le_pos; assumption|apply Rmult_lt_0_compat; assumption|].
  rewrite exp_plus. replace (b * d * (exp s * exp t)) with ((b * exp s) * (d * exp t)) by ring. apply Rmult_le_compat; assumption.
Qed.
Lemma upto_div s t a b c d : upto s a b -> near t c d -> upto (s + t) (a / c) (b / d).
Proof. intros A C. apply upto_mul; [exact A|apply near_upto, near_inv, C]. Qed.
Lemma upto_sqrt t x y : upto t x y -> upto (t / 2) (sqrt x) (sqrt y).
Proof.
  intros (A & B & U). repeat split; [apply sqrt_pos|apply sqrt_lt_R0, B|].
  replace (sqrt y * exp (t / 2)) with (sqrt (y * exp t)); [apply sqrt_le_1_alt, U|]. rewrite sqrt_mult; [|lra|left; apply exp_pos]. f_equal.
  replace t with (t / 2 + t / 2) at 1 by field. rewrite exp_plus. apply sqrt_square. left. apply exp_pos.
Qed.
Lemma upto_rnd t x y : 0 <= t <= / 2 -> / 2 ^ 1000 <= y -> upto t x y -> upto (t + 2 * u) (rnd64 x) y.
Proof.
  intros T Y (A & B & U). repeat split; [apply rnd64_pos, A|exact B|].
  assert (N : near (t + 2 * u) (rnd64 (y * exp t)) y).
  { apply near_rnd; [exact T|exact Y|]. split; [exact B|]. split; [|lra]. apply Rmult_le_compat_l; [lra|]. destruct (Req_dec t 0) as [->|]; [rewrite Ropp_0; lra|left; apply exp_increasing; lra]. }
  destruct N as (_ & _ & N). eapply Rle_trans; [|exact N]. apply rnd64_le, U.
Qed.
Lemma upto_le s t x y : upto s x y -> s <= t -> upto t x y.
Proof.
  intros (A & B & U) H. repeat split; try assumption. eapply Rle_trans; [exact U|]. apply Rmult_le_compat_l; [lra|]. destruct (Req_dec s t) as [->|]; [lra|left; apply exp_increasing; lra].
Qed.
Lemma upto_scale t k x y : 0 < k -> upto t x y -> upto t (k * x) (k * y).
Proof. intros K (A & B & U). repeat split; [apply Rmult_le_pos; lra|apply Rmult_lt_0_compat; assumption|]. rewrite Rmult_assoc. apply Rmult_le_compat_l; lra. Qed.

Lemma quality_upper a b c a' b' c' X Y Z q : (forall l, In l [a; b; c] -> / 2 ^ 100 <= l <= 2 ^ 100) ->
  near (66 * u) a' a -> near (66 * u) b' b -> near (66 * u) c' c ->
  (forall g, In g [X; Y; Z] -> / 2 ^ 160 <= g <= 2 ^ 103) ->
  0 < rnd64 (rnd64 (b' + c') - a') <= X -> 0 < rnd64 (rnd64 (c' + a') - b') <= Y -> 0 < rnd64 (rnd64 (a' + b') - c') <= Z ->
  quality64 a' b' c' = QNum q -> q <= 2 * (X * Y * Z / (a * b * c)).
Proof.
  intros SZ NA NB NC HG HX HY HZ. assert (U : u = / 9007199254740992) by reflexivity. assert (UP : 0 < u) by (rewrite U; lra).
  destruct (SZ a ltac:(cbn; tauto)) as [La Ua], (SZ b ltac:(cbn; tauto)) as [Lb Ub], (SZ c ltac:(cbn; tauto)) as [Lc Uc].
  destruct (HG X ltac:(cbn; tauto)) as [Lx Ux], (HG Y ltac:(cbn; tauto)) as [Ly Uy], (HG Z ltac:(cbn; tauto)) as [Lz Uz]. clear HG SZ.
  assert (P0 : 0 < / 2 ^ 100) by (apply Rinv_0_lt_compat, pow_lt; lra). assert (P1 : 0 < / 2 ^ 160) by (apply Rinv_0_lt_compat, pow_lt; lra).
  unfold quality64. set (x' := rnd64 (rnd64 (b' + c') - a')) in *. set (y' := rnd64 (rnd64 (c' + a') - b')) in *. set (z' := rnd64 (rnd64 (a' + b') - c')) in *.
  assert (Bx : upto 0 x' X) by (repeat split; [lra|lra|rewrite exp_0; lra]). assert (By : upto 0 y' Y) by (repeat split; [lra|lra|rewrite exp_0; lra]).
  assert (Bz : upto 0 z' Z) by (repeat split; [lra|lra|rewrite exp_0; lra]).
  assert (Ls : / 2 ^ 100 <= a + b + c) by lra. assert (E2 : 2 ^ 102 = 4 * 2 ^ 100) by (change (2 ^ 102) with (2 * (2 * 2 ^ 100)); ring). pose proof (pow_lt 2 100 ltac:(lra)) as P100.
  assert (Us : a + b + c <= 2 ^ 103) by (assert (E3 : 2 ^ 103 = 2 * 2 ^ 102) by (change (2 ^ 103) with (2 * 2 ^ 102); ring); lra).
  set (s' := rnd64 (rnd64 (a' + b') + c')). set (s := a + b + c) in *.
  assert (Ns : near (70 * u) s' s).
  { unfold s', s. replace (70 * u) with (68 * u + 2 * u) by ring. apply near_rnd; [lra|eapply lb_le; [exact Ls|lia]|]. apply near_add; [|apply near_le with (66 * u); [exact NC|lra]].
    replace (68 * u) with (66 * u + 2 * u) by ring. apply near_rnd; [lra|apply (lb_le 100); [lra|lia]|]. apply near_add; assumption. }
  rewrite (proj2 (Reqb_false s' 0)) by (pose proof (near_pos _ _ _ Ns); lra).
  assert (Nxyz : upto (4 * u) (rnd64 (rnd64 (x' * y') * z')) (X * Y * Z)).
  { replace (4 * u) with ((2 * u) + 0 + 2 * u) by ring. apply upto_rnd; [lra|apply (lb_le 480); [apply (lb_mul 320 160); [apply (lb_mul 160 160)|]; assumption|lia]|]. apply upto_mul; [|exact Bz].
    replace (2 * u) with (0 + 0 + 2 * u) by ring. apply upto_rnd; [lra|apply (lb_le 320); [apply (lb_mul 160 160); assumption|lia]|]. apply upto_mul; assumption. }
  set (v' := rnd64 (rnd64 (rnd64 (x' * y') * z') / s')).
  assert (Lv : / 2 ^ 584 <= X * Y * Z / s). { apply (lb_le (480 + 103)); [|lia]. apply (lb_div 480 103); [apply (lb_mul 320 160); [apply (lb_mul 160 160)|]; assumption|split; [lra|exact Us]]. }
  assert (Nv : upto (76 * u) v' (X * Y * Z / s)).
  { unfold v'. replace (76 * u) with ((4 * u) + 70 * u + 2 * u) by ring. apply upto_rnd; [lra|eapply lb_le; [exact Lv|lia]|]. apply upto_div; assumption. }
  set (w' := rnd64 (rnd64 (rnd64 (s' * x') * y') * z')).
  assert (Lw : / 2 ^ 580 <= s * X * Y * Z). { apply (lb_mul 420 160); [apply (lb_mul 260 160); [apply (lb_mul 100 160)|]|]; assumption. }
  assert (Nw : upto (76 * u) w' (s * X * Y * Z)).
  { unfold w'. replace (76 * u) with ((74 * u) + 0 + 2 * u) by ring. apply upto_rnd; [lra|eapply lb_le; [exact Lw|lia]|]. apply upto_mul; [|exact Bz].
    replace (74 * u) with ((72 * u) + 0 + 2 * u) by ring. apply upto_rnd; [lra|apply (lb_le 420); [apply (lb_mul 260 160); [apply (lb_mul 100 160)|]; assumption|lia]|]. apply upto_mul; [|exact By].
    replace (72 * u) with (70 * u + 0 + 2 * u) by ring. apply upto_rnd; [lra|apply (lb_le 260); [apply (lb_mul 100 160); assumption|lia]|]. apply upto_mul; [apply near_upto, Ns|exact Bx]. }
  assert (PR : 0 < X * Y * Z / (a * b * c)) by (apply Rdiv_lt_0_compat; repeat apply Rmult_lt_0_compat; lra).
  destruct (Rltb v' 0 || Rltb w' 0)%bool; [discriminate|].
  assert (Nd : upto (40 * u) (rnd64 (sqrt w')) (sqrt (s * X * Y * Z))).
  { replace (40 * u) with ((76 * u) / 2 + 2 * u) by field. apply upto_rnd; [lra|apply (lb_le 290); [apply (lb_sqrt 290), Lw|lia]|]. apply upto_sqrt, Nw. }
  assert (Nm : near (202 * u) (rnd64 (rnd64 (a' * b') * c')) (a * b * c)).
  { replace (202 * u) with ((134 * u) + 66 * u + 2 * u) by ring. apply near_rnd; [lra|apply (lb_le 300); [apply (lb_mul 200 100); [apply (lb_mul 100 100)|]; assumption|lia]|]. apply near_mul; [|exact NC].
    replace (134 * u) with (66 * u + 66 * u + 2 * u) by ring. apply near_rnd; [lra|apply (lb_le 200); [apply (lb_mul 100 100); assumption|lia]|]. apply near_mul; assumption. }
  assert (Lr : / 2 ^ 293 <= 1 / 2 * sqrt (X * Y * Z / s)). { replace (1 / 2) with (/ 2 ^ 1) by lra. apply (lb_mul 1 292); [lra|]. apply (lb_sqrt 292), Lv. }
  assert (Nr : upto (42 * u) (rnd64 (1 / 2 * rnd64 (sqrt v'))) (1 / 2 * sqrt (X * Y * Z / s))).
  { replace (42 * u) with (40 * u + 2 * u) by ring. apply upto_rnd; [lra|eapply lb_le; [exact Lr|lia]|]. apply upto_scale; [lra|].
    replace (40 * u) with ((76 * u) / 2 + 2 * u) by field. apply upto_rnd; [lra|apply (lb_le 292); [apply (lb_sqrt 292), Lv|lia]|]. apply upto_sqrt, Nv. }
  set (r' := rnd64 (1 / 2 * rnd64 (sqrt v'))) in *. set (d' := rnd64 (sqrt w')) in *. set (m' := rnd64 (rnd64 (a' * b') * c')) in *.
  destruct (Reqb d' 0) eqn:ED. { destruct (Reqb m' 0); [discriminate|]. intros H. injection H as <-. lra. } apply Reqb_false in ED.
  assert (Dp : 0 < d') by (destruct Nd as (D0 & _); lra).
  assert (Pd : 0 < sqrt (s * X * Y * Z)) by (destruct Nd as (_ & D1 & _); exact D1).
  assert (Ud : sqrt (s * X * Y * Z) <= 2 ^ 206).
  { rewrite <- (sqrt_square (2 ^ 206)) by (apply Rlt_le, pow_lt; lra). apply sqrt_le_1_alt. rewrite <- pow_add.
    assert (0 <= s * X) by (apply Rmult_le_pos; lra). assert (0 <= s * X * Y) by (apply Rmult_le_pos; lra).
    apply Rle_trans with (2 ^ 103 * 2 ^ 103 * 2 ^ 103 * 2 ^ 103); [|rewrite <- !pow_add; apply Rle_pow; [lra|lia]].
    apply Rmult_le_compat; [lra|lra| |lra]. apply Rmult_le_compat; [lra|lra| |lra]. apply Rmult_le_compat; lra. }
  set (K := a * b * c / sqrt (s * X * Y * Z)).
  assert (Lk : / 2 ^ 506 <= K) by (apply (lb_div 300 206); [apply (lb_mul 200 100); [apply (lb_mul 100 100)|]; assumption|split; assumption]).
  (* the computed quotient is at least K exp(-244 u) *)
  assert (Kb : K * exp (- (244 * u)) <= rnd64 (m' / d')).
  { assert (LB : K * exp (- (242 * u)) <= m' / d').
    { destruct Nm as (M0 & M1 & _), Nd as (_ & _ & D1). apply Rle_trans with ((a * b * c * exp (- (202 * u))) / (sqrt (s * X * Y * Z) * exp (40 * u))).
      - unfold K. replace (- (242 * u)) with (- (202 * u) + - (40 * u)) by ring. rewrite exp_plus, (exp_Ropp (40 * u)). right. field. split; [apply Rgt_not_eq, exp_pos|lra].
      - unfold Rdiv. apply Rmult_le_compat; [left; apply Rmult_lt_0_compat; [exact M0|apply exp_pos]|left; apply Rinv_0_lt_compat, Rmult_lt_0_compat; [exact Pd|apply exp_pos]|exact M1|].
        apply Rinv_le_contravar; assumption. }
    assert (KP : 0 < K) by (eapply Rlt_le_trans; [|exact Lk]; apply Rinv_0_lt_compat, pow_lt; lra).
    assert (N : near (242 * u + 2 * u) (rnd64 (K * exp (- (242 * u)))) K).
    { apply near_rnd; [lra|eapply lb_le; [exact Lk|lia]|]. split; [exact KP|]. split; [lra|]. apply Rmult_le_compat_l; [lra|]. left. apply exp_increasing. lra. }
    replace (242 * u + 2 * u) with (244 * u) in N by ring. destruct N as (_ & N & _). eapply Rle_trans; [exact N|]. apply rnd64_le, LB. }
  set (k' := rnd64 (m' / d')) in *. assert (KP : 0 < K) by (eapply Rlt_le_trans; [|exact Lk]; apply Rinv_0_lt_compat, pow_lt; lra).
  assert (k0 : 0 < k') by (eapply Rlt_le_trans; [|exact Kb]; apply Rmult_lt_0_compat; [exact KP|apply exp_pos]).
  rewrite (proj2 (Reqb_false k' 0)) by lra. intros H. injection H as <-.
  assert (Bk : upto (244 * u) (/ k') (/ K)).
  { repeat split; [left; apply Rinv_0_lt_compat, k0|apply Rinv_0_lt_compat, KP|]. replace (exp (244 * u)) with (/ exp (- (244 * u))) by (rewrite exp_Ropp, Rinv_inv; reflexivity).
    rewrite <- Rinv_mult. apply Rinv_le_contravar; [apply Rmult_lt_0_compat; [exact KP|apply exp_pos]|exact Kb]. }
  assert (EQ : 2 * (1 / 2 * sqrt (X * Y * Z / s)) * / K = X * Y * Z / (a * b * c)).
  { unfold K. assert (PG : 0 < X * Y * Z) by (repeat apply Rmult_lt_0_compat; lra). replace (s * X * Y * Z) with (s * (X * Y * Z)) in * by ring. set (h := X * Y * Z) in *.
    assert (SP : 0 < s) by lra.
    assert (E : sqrt (h / s) * sqrt (s * h) = h).
    { rewrite <- sqrt_mult_alt; [|apply Rlt_le, Rdiv_lt_0_compat; assumption]. replace (h / s * (s * h)) with (h * h) by (field; lra). apply sqrt_square. lra. }
    transitivity ((sqrt (h / s) * sqrt (s * h)) / (a * b * c)); [field; repeat split; lra|rewrite E; reflexivity]. }
  assert (N2 : upto (290 * u) (rnd64 (rnd64 (2 * r') / k')) (X * Y * Z / (a * b * c))).
  { rewrite <- EQ. replace (290 * u) with (44 * u + 244 * u + 2 * u) by ring. apply upto_rnd; [lra| |apply upto_mul; [|exact Bk]].
    - rewrite EQ. apply (lb_le (480 + 300)); [|lia]. apply (lb_div 480 300); [apply (lb_mul 320 160); [apply (lb_mul 160 160)|]; assumption|].
      split; [repeat apply Rmult_lt_0_compat; lra|]. replace (2 ^ 300) with (2 ^ 100 * 2 ^ 100 * 2 ^ 100) by (rewrite <- !pow_add; reflexivity).
      assert (0 <= a * b) by (apply Rmult_le_pos; lra). apply Rmult_le_compat; [lra|lra| |lra]. apply Rmult_le_compat; lra.
    - replace (44 * u) with (42 * u + 2 * u) by ring. apply upto_rnd; [lra| |apply upto_scale; [lra|exact Nr]]. apply (lb_le 293); [lra|lia]. }
  destruct N2 as (_ & _ & N2). destruct (exp_up (290 * u)) as [E|]; [lra| |lra].
  eapply Rle_trans; [exact N2|]. rewrite (Rmult_comm 2). apply Rmult_le_compat_l; lra.
Qed.

Lemma absorb a c : fmt64 c -> 0 < c -> 0 <= a -> a < / 2 * u * c -> rnd64 (c + a) = c.
Proof.
  intros F P A H. unfold rnd64. apply Rle_antisym.
  - apply round_N_le_midp; [apply FLT_exp_valid; reflexivity|exact F|]. rewrite succ_eq_pos by lra.
    assert (PG : Prec_gt_0 53) by reflexivity. pose proof (ulp_FLT_gt radix2 (-1074) 53 c) as G. rewrite (Rabs_pos_eq c) in G by lra. replace (bpow radix2 (- (53))) with u in G by (unfold u; cbn; lra). lra.
  - apply Rle_trans with (round radix2 (FLT_exp (-1074) 53) (Znearest (fun z => negb (Z.even z))) c).
    + right. symmetry. apply round_generic; [typeclasses eauto|exact F].
    + apply round_le; [apply FLT_exp_valid; reflexivity|typeclasses eauto|lra].
Qed.
Lemma fmt_rnd x : fmt64 (rnd64 x).
Proof. apply generic_format_round; [apply FLT_exp_valid; reflexivity|typeclasses eauto]. Qed.
Lemma rnd_fmt x : fmt64 x -> rnd64 x = x.
Proof. intros H. unfold rnd64. apply round_generic; [typeclasses eauto|exact H]. Qed.
Lemma rnd_neg_arg x : rnd64 x < 0 -> x < 0.
Proof. intros H. apply Rnot_le_lt. intros L. pose proof (rnd64_pos x L). lra. Qed.
(** two of the differences cannot be negative *)
Lemma two_neg a b c : fmt64 a -> fmt64 b -> 0 <= c -> rnd64 (rnd64 (b + c) - a) < 0 -> rnd64 (rnd64 (c + a) - b) < 0 -> False.
Proof.
  intros FA FB C X Y. apply rnd_neg_arg in X, Y. pose proof (rnd64_le a (c + a) ltac:(lra)) as A. pose proof (rnd64_le b (b + c) ltac:(lra)) as B. rewrite (rnd_fmt a) in A by exact FA. rewrite (rnd_fmt b) in B by exact FB. lra.
Qed.
(** a side that is lost in both sums *)
Lemma lost_side a b c : fmt64 b -> fmt64 c -> 0 <= a -> 0 < b -> 0 < c -> 0 < rnd64 (rnd64 (c + a) - b) -> 0 < rnd64 (rnd64 (a + b) - c) -> / 2 * u * Rmin b c <= a.
Proof.
  intros FB FC A B C Y Z. apply Rnot_lt_le. intros H. assert (UP : 0 < / 2 * u) by (unfold u; lra). pose proof (Rmin_l b c). pose proof (Rmin_r b c).
  assert (/ 2 * u * Rmin b c <= / 2 * u * b) by (apply Rmult_le_compat_l; lra). assert (/ 2 * u * Rmin b c <= / 2 * u * c) by (apply Rmult_le_compat_l; lra).
  rewrite (absorb a c) in Y by (assumption || lra). rewrite (Rplus_comm a b), (absorb a b) in Z by (assumption || lra).
  assert (~ c - b <= 0) by (intros L; pose proof (rnd64_neg _ L); lra). assert (~ b - c <= 0) by (intros L; pose proof (rnd64_neg _ L); lra). lra.
Qed.
Lemma no_product a b c q : let x := rnd64 (rnd64 (b + c) - a) in let y := rnd64 (rnd64 (c + a) - b) in let z := rnd64 (rnd64 (a + b) - c) in
  0 <= rnd64 (rnd64 (a + b) + c) -> rnd64 (rnd64 (x * y) * z) <= 0 -> quality64 a b c = QNum q -> q = 0.
Proof.
  intros x y z S P. unfold quality64. fold x y z. destruct (Reqb (rnd64 (rnd64 (a + b) + c)) 0) eqn:ES; [discriminate|]. apply Reqb_false in ES. set (s := rnd64 (rnd64 (a + b) + c)) in *.
  set (v := rnd64 (rnd64 (rnd64 (x * y) * z) / s)). assert (V : v <= 0).
  { apply rnd64_neg. assert (0 < / s) by (apply Rinv_0_lt_compat; lra). unfold Rdiv. nra. }
  destruct (Rltb v 0) eqn:L; cbn [orb]; [discriminate|]. apply Rltb_false in L. assert (v = 0) as -> by lra. rewrite sqrt_0, rnd64_0, Rmult_0_r, rnd64_0.
  destruct (Rltb _ 0); [discriminate|]. destruct (Reqb (rnd64 (sqrt _)) 0); [destruct (Reqb _ 0); [discriminate|intros H; injection H as <-; reflexivity]|].
  destruct (Reqb (rnd64 (_ / _)) 0); [destruct (Reqb 0 0) eqn:Z; [discriminate|apply Reqb_false in Z; congruence]|]. intros H. injection H as <-.
  rewrite Rmult_0_r, rnd64_0. unfold Rdiv. rewrite Rmult_0_l. apply rnd64_0.
Qed.
Lemma gap_upper a b c a' b' c' : / 2 ^ 100 <= a -> / 2 ^ 100 <= b -> / 2 ^ 100 <= c -> 0 <= b + c - a ->
  near (66 * u) a' a -> near (66 * u) b' b -> near (66 * u) c' c -> rnd64 (rnd64 (b' + c') - a') <= (b + c - a) + 140 * u * (a + b + c).
Proof.
  intros LA LB LC G NA NB NC. assert (U : u = / 9007199254740992) by reflexivity. assert (P0 : 0 < / 2 ^ 100) by (apply Rinv_0_lt_compat, pow_lt; lra).
  assert (UP : 0 < u) by (rewrite U; lra). set (s := a + b + c). assert (SP : / 2 ^ 100 <= s) by (unfold s; lra).
  assert (NS : near (68 * u) (rnd64 (b' + c')) (b + c)).
  { replace (68 * u) with (66 * u + 2 * u) by ring. apply near_rnd; [rewrite U; lra|apply (lb_le 100); [lra|lia]|apply near_add; assumption]. }
  apply near_abs in NS; [|rewrite U; lra]. apply near_abs in NA; [|rewrite U; lra]. set (bc := rnd64 (b' + c')) in *.
  assert (E : Rabs ((bc - a') - (b + c - a)) <= 136 * u * s).
  { replace ((bc - a') - (b + c - a)) with ((bc - (b + c)) + - (a' - a)) by ring. eapply Rle_trans; [apply Rabs_triang|]. rewrite Rabs_Ropp.
    assert (0 <= u * a) by (apply Rmult_le_pos; lra). unfold s. lra. }
  pose proof (err (bc - a')) as F. assert (ET : eta <= u * s).
  { apply Rle_trans with (u * / 2 ^ 100); [|apply Rmult_le_compat_l; lra]. unfold eta, u. replace 9007199254740992 with (2 ^ 53) by ring. rewrite <- Rinv_mult, <- pow_add. apply pow_le. lia. }
  set (g := b + c - a) in *. assert (GS : g <= s) by (unfold g, s; lra). apply Rabs_le_inv in E, F.
  assert (A : Rabs (bc - a') <= s + 136 * u * s) by (apply Rabs_le; lra). assert (u * Rabs (bc - a') <= u * (s + 136 * u * s)) by (apply Rmult_le_compat_l; lra).
  assert (136 * u * s <= s) by (rewrite <- (Rmult_1_l s) at 2; apply Rmult_le_compat_r; [lra|rewrite U; lra]).
  assert (u * (s + 136 * u * s) <= u * (2 * s)) by (apply Rmult_le_compat_l; lra). lra.
Qed.
Lemma thin_bound a b c : 0 < a -> a <= b -> a <= c -> c <= a + b -> b <= a + c -> u * (a + b + c) <= 64 * a ->
  let e := 140 * u * (a + b + c) in let x := b + c - a in let y := c + a - b in let z := a + b - c in
  (x + e) * (y + e) * (z + e) <= 3 / 2 * (x * y * z) + / 67108864 * (a * b * c).
Proof.
  intros A AB AC Z Y S e x y z. assert (U : u = / 9007199254740992) by reflexivity. set (s := a + b + c) in *.
  assert (X3 : s <= 3 * x) by (unfold x, s; lra). assert (Y0 : 0 <= y) by (unfold y; lra). assert (Z0 : 0 <= z) by (unfold z; lra). assert (S0 : 0 < s) by (unfold s; lra).
  assert (E0 : 0 <= e) by (unfold e; apply Rmult_le_pos; [rewrite U|]; lra). assert (E1 : e <= / 10 * s) by (unfold e; apply Rmult_le_compat_r; [lra|rewrite U; lra]).
  assert (E2 : e <= 8960 * a) by (unfold e; lra). assert (X1 : x + e <= 11 / 10 * s) by (unfold x, s in *; lra).
  assert (YZ : y + z = 2 * a) by (unfold y, z; ring). assert (P : 0 <= y * z) by (apply Rmult_le_pos; assumption).
  replace ((x + e) * (y + e) * (z + e)) with (x * (y * z) + e * (y * z) + (x + e) * (e * (y + z + e))) by ring. rewrite YZ.
  assert (T1 : e * (y * z) <= / 2 * x * (y * z)) by (apply Rmult_le_compat_r; [exact P|lra]).
  assert (T2 : (x + e) * (e * (2 * a + e)) <= (11 / 10 * s) * (e * (8962 * a))).
  { apply Rmult_le_compat; [unfold x, s in *; lra|apply Rmult_le_pos; lra|exact X1|]. apply Rmult_le_compat_l; lra. }
  assert (T3 : s * s <= 16 * (b * c)). { replace (16 * (b * c)) with ((4 * b) * (4 * c)) by ring. apply Rmult_le_compat; unfold s in *; lra. }
  assert (T4 : (11 / 10 * s) * (e * (8962 * a)) <= / 67108864 * (a * b * c)).
  { replace ((11 / 10 * s) * (e * (8962 * a))) with ((11 / 10 * 8962 * 140 * u) * (a * (s * s))) by (unfold e; ring).
    assert (a * (s * s) <= a * (16 * (b * c))) by (apply Rmult_le_compat_l; lra). assert (0 <= a * (s * s)) by (apply Rmult_le_pos; [lra|apply Rle_0_sqr]).
    replace (a * b * c) with (/ 16 * (a * (16 * (b * c)))) by field. rewrite U. lra. }
  replace (x * y * z) with (x * (y * z)) by ring. lra.
Qed.
Lemma quality_thin a b c a' b' c' q : (forall l, In l [a; b; c] -> / 2 ^ 100 <= l <= 2 ^ 100) -> a <= b + c -> b <= c + a -> c <= a + b ->
  near (66 * u) a' a -> near (66 * u) b' b -> near (66 * u) c' c -> fmt64 a' -> fmt64 b' -> fmt64 c' ->
  quality64 a' b' c' = QNum q -> q <= 3 * ((b + c - a) * (c + a - b) * (a + b - c) / (a * b * c)) + / 2 ^ 25.
Proof.
  intros SZ Ta Tb Tc NA NB NC FA FB FC HQ. assert (U : u = / 9007199254740992) by reflexivity. assert (UP : 0 < u) by (rewrite U; lra).
  destruct (SZ a ltac:(cbn; tauto)) as [La Ua], (SZ b ltac:(cbn; tauto)) as [Lb Ub], (SZ c ltac:(cbn; tauto)) as [Lc Uc].
  assert (P0 : 0 < / 2 ^ 100) by (apply Rinv_0_lt_compat, pow_lt; lra).
  pose proof (near_pos _ _ _ NA) as PA. pose proof (near_pos _ _ _ NB) as PB. pose proof (near_pos _ _ _ NC) as PC.
  assert (D : 0 < a * b * c) by (repeat apply Rmult_lt_0_compat; lra).
  assert (QX : 0 <= (b + c - a) * (c + a - b) * (a + b - c) / (a * b * c)).
  { apply Rmult_le_pos; [repeat apply Rmult_le_pos; lra|left; apply Rinv_0_lt_compat, D]. }
  assert (T0 : 0 < / 2 ^ 25) by (apply Rinv_0_lt_compat, pow_lt; lra).
  set (x' := rnd64 (rnd64 (b' + c') - a')). set (y' := rnd64 (rnd64 (c' + a') - b')). set (z' := rnd64 (rnd64 (a' + b') - c')).
  assert (NXY : ~ (x' < 0 /\ y' < 0)) by (intros [X Y]; apply (two_neg a' b' c'); try assumption; lra).
  assert (NYZ : ~ (y' < 0 /\ z' < 0)) by (intros [X Y]; apply (two_neg b' c' a'); try assumption; lra).
  assert (NZX : ~ (z' < 0 /\ x' < 0)) by (intros [X Y]; apply (two_neg c' a' b'); try assumption; lra).
  destruct (Rle_dec (rnd64 (rnd64 (x' * y') * z')) 0) as [NP|PP].
  { assert (q = 0) as ->; [|lra]. apply (no_product a' b' c' q); [apply rnd64_pos; pose proof (rnd64_pos (a' + b') ltac:(lra)); lra|exact NP|exact HQ]. }
  assert (ALL : 0 < x' /\ 0 < y' /\ 0 < z').
  { destruct (Rlt_dec 0 x') as [X|X].
    - destruct (Rlt_dec 0 y') as [Y|Y].
      + destruct (Rlt_dec 0 z') as [Z|Z]; [tauto|]. exfalso. apply PP, rnd64_neg. pose proof (rnd64_pos (x' * y') ltac:(apply Rmult_le_pos; lra)). nra.
      + exfalso. apply PP, rnd64_neg. destruct (Req_dec y' 0) as [E|E]; [rewrite E, Rmult_0_r, rnd64_0, Rmult_0_l; lra|]. assert (0 <= z') by (apply Rnot_lt_le; intros L; apply NYZ; split; lra).
        pose proof (rnd64_neg (x' * y') ltac:(nra)). nra.
    - exfalso. apply PP, rnd64_neg. destruct (Req_dec x' 0) as [E|E]; [rewrite E, Rmult_0_l, rnd64_0, Rmult_0_l; lra|].
      assert (0 <= z') by (apply Rnot_lt_le; intros L; apply NZX; split; lra). assert (0 <= y') by (apply Rnot_lt_le; intros L; apply NXY; split; lra).
      pose proof (rnd64_neg (x' * y') ltac:(nra)). nra. }
  destruct ALL as (X & Y & Z). clear NXY NYZ NZX PP.
  pose proof (gap_upper a b c a' b' c' La Lb Lc ltac:(lra) NA NB NC) as GX. fold x' in GX.
  pose proof (gap_upper b c a b' c' a' Lb Lc La ltac:(lra) NB NC NA) as GY. fold y' in GY. replace (b + c + a) with (a + b + c) in GY by ring.
  pose proof (gap_upper c a b c' a' b' Lc La Lb ltac:(lra) NC NA NB) as GZ. fold z' in GZ. replace (c + a + b) with (a + b + c) in GZ by ring.
  set (e := 140 * u * (a + b + c)) in *.
  assert (E2 : 2 ^ 102 = 4 * 2 ^ 100) by (change (2 ^ 102) with (2 * (2 * 2 ^ 100)); ring). assert (E3 : 2 ^ 103 = 2 * 2 ^ 102) by (change (2 ^ 103) with (2 * 2 ^ 102); ring). pose proof (pow_lt 2 100 ltac:(lra)) as P100.
  assert (EB : / 2 ^ 160 <= e <= 2 ^ 102).
  { split.
    - apply Rle_trans with (u * / 2 ^ 100); [|unfold e; assert (u * / 2 ^ 100 <= u * (a + b + c)) by (apply Rmult_le_compat_l; lra); assert (0 <= u * (a + b + c)) by (apply Rmult_le_pos; lra); lra].
      unfold u. replace 9007199254740992 with (2 ^ 53) by ring. rewrite <- Rinv_mult, <- pow_add. apply pow_le. lia.
    - apply Rle_trans with (1 * (a + b + c)); [apply Rmult_le_compat_r; [lra|rewrite U; lra]|lra]. }
  pose proof (quality_upper a b c a' b' c' (b + c - a + e) (c + a - b + e) (a + b - c + e) q SZ NA NB NC) as QU.
  specialize (QU ltac:(intros g [<-|[<-|[<-|[]]]]; lra) (conj X GX) (conj Y GY) (conj Z GZ) HQ).
  assert (MAIN : (b + c - a + e) * (c + a - b + e) * (a + b - c + e) <= 3 / 2 * ((b + c - a) * (c + a - b) * (a + b - c)) + / 67108864 * (a * b * c)).
  { assert (HALF : forall v' v, near (66 * u) v' v -> / 2 * v <= v' <= 2 * v).
    { intros v' v N. pose proof (near_abs (66 * u) v' v ltac:(rewrite U; lra) N) as AB. destruct N as (VP & _). apply Rabs_le_inv in AB. assert (2 * (66 * u) * v <= / 2 * v) by (apply Rmult_le_compat_r; [lra|rewrite U; lra]). lra. }
    pose proof (HALF _ _ NA). pose proof (HALF _ _ NB). pose proof (HALF _ _ NC).
    assert (LOST : forall f g h f' g' h', 0 < f -> / 2 * f <= f' <= 2 * f -> / 2 * g <= g' <= 2 * g -> / 2 * h <= h' <= 2 * h -> a + b + c = f + g + h -> f <= g -> f <= h -> g <= h + f -> h <= f + g ->
      / 2 * u * Rmin g' h' <= f' -> u * (f + g + h) <= 64 * f).
    { intros f g h f1 g1 h1 F0 F1 G1 K1 _ FG FH GH HG L. assert (/ 8 * (f + g + h) <= Rmin g1 h1) by (apply Rmin_glb; lra).
      assert (/ 2 * u * (/ 8 * (f + g + h)) <= / 2 * u * Rmin g1 h1) by (apply Rmult_le_compat_l; lra). lra. }
    destruct (Rle_dec a b) as [AB|AB]; [destruct (Rle_dec a c) as [AC|AC]|destruct (Rle_dec b c) as [BC|BC]].
    - apply thin_bound; try lra. apply (LOST a b c a' b' c'); try lra. apply lost_side; try assumption; lra.
    - pose proof (thin_bound c a b ltac:(lra) ltac:(lra) ltac:(lra) ltac:(lra) ltac:(lra)) as TB. cbv zeta in TB. replace (c + a + b) with (a + b + c) in TB by ring. fold e in TB.
      replace (c * a * b) with (a * b * c) in TB by ring. lapply TB; [intros TB'; clear TB|].
      + replace ((b + c - a + e) * (c + a - b + e) * (a + b - c + e)) with ((a + b - c + e) * (b + c - a + e) * (c + a - b + e)) by ring.
        replace ((b + c - a) * (c + a - b) * (a + b - c)) with ((a + b - c) * (b + c - a) * (c + a - b)) by ring. exact TB'.
      + replace (a + b + c) with (c + a + b) by ring. apply (LOST c a b c' a' b'); try lra. apply lost_side; try assumption; lra.
    - pose proof (thin_bound b c a ltac:(lra) ltac:(lra) ltac:(lra) ltac:(lra) ltac:(lra)) as TB. cbv zeta in TB. replace (b + c + a) with (a + b + c) in TB by ring. fold e in TB.
      replace (b * c * a) with (a * b * c) in TB by ring. lapply TB; [intros TB'; clear TB|].
      + replace ((b + c - a + e) * (c + a - b + e) * (a + b - c + e)) with ((c + a - b + e) * (a + b - c + e) * (b + c - a + e)) by ring.
        replace ((b + c - a) * (c + a - b) * (a + b - c)) with ((c + a - b) * (a + b - c) * (b + c - a)) by ring. exact TB'.
      + replace (a + b + c) with (b + c + a) by ring. apply (LOST b c a b' c' a'); try lra. apply lost_side; try assumption; lra.
    - pose proof (thin_bound c a b ltac:(lra) ltac:(lra) ltac:(lra) ltac:(lra) ltac:(lra)) as TB. cbv zeta in TB. replace (c + a + b) with (a + b + c) in TB by ring. fold e in TB.
      replace (c * a * b) with (a * b * c) in TB by ring. lapply TB; [intros TB'; clear TB|].
      + replace ((b + c - a + e) * (c + a - b + e) * (a + b - c + e)) with ((a + b - c + e) * (b + c - a + e) * (c + a - b + e)) by ring.
        replace ((b + c - a) * (c + a - b) * (a + b - c)) with ((a + b - c) * (b + c - a) * (c + a - b)) by ring. exact TB'.
      + replace (a + b + c) with (c + a + b) by ring. apply (LOST c a b c' a' b'); try lra. apply lost_side; try assumption; lra. }
  eapply Rle_trans; [exact QU|]. set (g := (b + c - a) * (c + a - b) * (a + b - c)) in *. set (G := (b + c - a + e) * (c + a - b + e) * (a + b - c + e)) in *. set (m := a * b * c) in *.
  assert (G / m <= 3 / 2 * (g / m) + / 67108864).
  { apply Rle_trans with ((3 / 2 * g + / 67108864 * m) / m); [apply Rmult_le_compat_r; [left; apply Rinv_0_lt_compat, D|exact MAIN]|right; field; lra]. }
  replace (2 ^ 25) with 33554432 by ring. lra.
Qed.
Lemma quality_nonneg a b c q : 0 <= a -> 0 <= b -> 0 <= c -> quality64 a b c = QNum q -> 0 <= q.
Proof.
  intros A B C. unfold quality64. set (x := rnd64 (rnd64 (b + c) - a)). set (y := rnd64 (rnd64 (c + a) - b)). set (z := rnd64 (rnd64 (a + b) - c)). set (s := rnd64 (rnd64 (a + b) + c)).
  set (v := rnd64 (rnd64 (rnd64 (x * y) * z) / s)). set (w := rnd64 (rnd64 (rnd64 (s * x) * y) * z)).
  assert (M : 0 <= rnd64 (rnd64 (a * b) * c)) by (apply rnd64_pos, Rmult_le_pos; [apply rnd64_pos, Rmult_le_pos; assumption|exact C]). set (m := rnd64 (rnd64 (a * b) * c)) in *.
  assert (D : 0 <= rnd64 (sqrt w)) by apply rnd64_pos, sqrt_pos. set (d := rnd64 (sqrt w)) in *.
  assert (V : 0 <= rnd64 (sqrt v)) by apply rnd64_pos, sqrt_pos. assert (HR : 0 <= rnd64 (1 / 2 * rnd64 (sqrt v))) by (apply rnd64_pos; lra). set (r := rnd64 (1 / 2 * rnd64 (sqrt v))) in *.
  destruct (Reqb s 0); [discriminate|]. destruct (Rltb v 0 || Rltb w 0)%bool; [discriminate|].
  destruct (Reqb d 0) eqn:ED; [destruct (Reqb m 0); [discriminate|intros H; injection H as <-; lra]|]. apply Reqb_false in ED.
  assert (K : 0 <= rnd64 (m / d)) by (apply rnd64_pos, Rmult_le_pos; [exact M|left; apply Rinv_0_lt_compat; lra]).
  destruct (Reqb (rnd64 (m / d)) 0) eqn:EK; [destruct (Reqb r 0); discriminate|]. apply Reqb_false in EK. intros H. injection H as <-.
  apply rnd64_pos, Rmult_le_pos; [apply rnd64_pos; lra|left; apply Rinv_0_lt_compat; lra].
Qed.
Lemma rnd_pow n x : (n <= 1000)%nat -> Rabs x <= 2 ^ n -> Rabs (rnd64 x) <= 2 ^ n.
Proof.
  intros N H. assert (E : rnd64 (2 ^ n) = 2 ^ n).
  { apply rnd_fmt. unfold fmt64. replace (2 ^ n) with (bpow radix2 (Z.of_nat n)).
    - apply generic_format_bpow. unfold FLT_exp. lia.
    - rewrite <- (IZR_Zpower radix2) by lia. change (radix_val radix2) with 2%Z. rewrite pow_IZR. f_equal. }
  apply Rabs_le_inv in H. apply Rabs_le. split.
  - rewrite <- E at 1. replace (- rnd64 (2 ^ n)) with (rnd64 (- 2 ^ n)) by (unfold rnd64; rewrite round_NE_opp; reflexivity). apply rnd64_le. lra.
  - rewrite <- E. apply rnd64_le. lra.
Qed.
Lemma mul_pow m n x y : Rabs x <= 2 ^ m -> Rabs y <= 2 ^ n -> Rabs (x * y) <= 2 ^ (m + n).
Proof. intros A B. rewrite Rabs_mult, pow_add. apply Rmult_le_compat; try apply Rabs_pos; assumption. Qed.
Lemma add_pow n x y : Rabs x <= 2 ^ n -> Rabs y <= 2 ^ n -> Rabs (x + y) <= 2 ^ (n + 1) /\ Rabs (x - y) <= 2 ^ (n + 1).
Proof.
  intros A B. rewrite pow_add, pow_1. split; [eapply Rle_trans; [apply Rabs_triang|]; lra|]. unfold Rminus. eapply Rle_trans; [apply Rabs_triang|]. rewrite Rabs_Ropp. lra.
Qed.
Lemma not_inf a b c a' b' c' : (forall l, In l [a; b; c] -> / 2 ^ 100 <= l <= 2 ^ 100) ->
  near (66 * u) a' a -> near (66 * u) b' b -> near (66 * u) c' c -> quality64 a' b' c' <> QInf.
Proof.
  intros SZ NA NB NC. assert (U : u = / 9007199254740992) by reflexivity. assert (UP : 0 < u) by (rewrite U; lra).
  destruct (SZ a ltac:(cbn; tauto)) as [La Ua], (SZ b ltac:(cbn; tauto)) as [Lb Ub], (SZ c ltac:(cbn; tauto)) as [Lc Uc].
  assert (P0 : 0 < / 2 ^ 100) by (apply Rinv_0_lt_compat, pow_lt; lra).
  assert (TOP : forall v' v, near (66 * u) v' v -> v <= 2 ^ 100 -> Rabs v' <= 2 ^ 101).
  { intros v' v N H. pose proof (near_abs (66 * u) v' v ltac:(rewrite U; lra) N) as AB. pose proof (near_pos _ _ _ N) as VP. rewrite Rabs_pos_eq by lra. destruct N as (V0 & _). apply Rabs_le_inv in AB.
    assert (2 * (66 * u) * v <= 1 * v) by (apply Rmult_le_compat_r; [lra|rewrite U; lra]). assert (E : 2 ^ 101 = 2 * 2 ^ 100) by (change (2 ^ 101) with (2 * 2 ^ 100); ring). lra. }
  pose proof (TOP _ _ NA Ua) as A. pose proof (TOP _ _ NB Ub) as B. pose proof (TOP _ _ NC Uc) as C.
  assert (G : forall x y z, Rabs x <= 2 ^ 101 -> Rabs y <= 2 ^ 101 -> Rabs z <= 2 ^ 101 -> Rabs (rnd64 (rnd64 (x + y) - z)) <= 2 ^ 103 /\ Rabs (rnd64 (rnd64 (x + y) + z)) <= 2 ^ 103).
  { intros x y z X Y Z. assert (S : Rabs (rnd64 (x + y)) <= 2 ^ 102) by (apply rnd_pow; [lia|apply (add_pow 101); assumption]).
    assert (Z' : Rabs z <= 2 ^ 102) by (eapply Rle_trans; [exact Z|]; apply Rle_pow; [lra|lia]). split; apply rnd_pow; try lia; apply (add_pow 102); assumption. }
  destruct (G b' c' a' B C A) as [Gx _]. destruct (G c' a' b' C A B) as [Gy _]. destruct (G a' b' c' A B C) as [Gz Gs].
  unfold quality64. set (x := rnd64 (rnd64 (b' + c') - a')) in *. set (y := rnd64 (rnd64 (c' + a') - b')) in *. set (z := rnd64 (rnd64 (a' + b') - c')) in *. set (s := rnd64 (rnd64 (a' + b') + c')) in *.
  set (w := rnd64 (rnd64 (rnd64 (s * x) * y) * z)).
  assert (W : Rabs w <= 2 ^ 412).
  { apply rnd_pow; [lia|]. apply (mul_pow 309 103); [|exact Gz]. apply rnd_pow; [lia|]. apply (mul_pow 206 103); [|exact Gy]. apply rnd_pow; [lia|]. apply (mul_pow 103 103); assumption. }
  assert (D : 0 <= rnd64 (sqrt w) <= 2 ^ 206).
  { split; [apply rnd64_pos, sqrt_pos|]. eapply Rle_trans; [apply Rle_abs|]. apply rnd_pow; [lia|]. rewrite Rabs_pos_eq by apply sqrt_pos.
    rewrite <- (sqrt_square (2 ^ 206)) by (apply Rlt_le, pow_lt; lra). apply sqrt_le_1_alt. rewrite <- pow_add. eapply Rle_trans; [apply Rle_abs|exact W]. }
  assert (Nm : near (202 * u) (rnd64 (rnd64 (a' * b') * c')) (a * b * c)).
  { assert (3 * u <= / 8192) by (rewrite U; lra). replace (202 * u) with ((134 * u) + 66 * u + 2 * u) by ring. apply near_rnd; [rewrite U; lra|apply (lb_le 300); [apply (lb_mul 200 100); [apply (lb_mul 100 100)|]; assumption|lia]|]. apply near_mul; [|exact NC].
    replace (134 * u) with (66 * u + 66 * u + 2 * u) by ring. apply near_rnd; [rewrite U; lra|apply (lb_le 200); [apply (lb_mul 100 100); assumption|lia]|]. apply near_mul; assumption. }
  set (m := rnd64 (rnd64 (a' * b') * c')) in *. set (d := rnd64 (sqrt w)) in *.
  destruct (Reqb s 0); [discriminate|]. destruct (Rltb _ 0 || Rltb w 0)%bool; [discriminate|]. destruct (Reqb d 0) eqn:ED; [destruct (Reqb m 0); discriminate|]. apply Reqb_false in ED.
  assert (LM : / 2 ^ 301 <= m).
  { pose proof (near_abs (202 * u) m (a * b * c) ltac:(rewrite U; lra) Nm) as AB. assert (L3 : / 2 ^ 300 <= a * b * c) by (apply (lb_mul 200 100); [apply (lb_mul 100 100)|]; assumption).
    apply Rabs_le_inv in AB. destruct Nm as (M0 & _). assert (2 * (202 * u) * (a * b * c) <= / 2 * (a * b * c)) by (apply Rmult_le_compat_r; [lra|rewrite U; lra]).
    assert (E : / 2 ^ 301 = / 2 * / 2 ^ 300) by (rewrite <- Rinv_mult; f_equal; change (2 ^ 301) with (2 * 2 ^ 300); ring). lra. }
  assert (K : / 2 ^ 507 <= m / d) by (apply (lb_div 301 206); [exact LM|lra]).
  assert (KP : 0 < rnd64 (m / d)).
  { apply (near_pos (0 + 2 * u) _ (m / d)). assert (0 < / 2 ^ 507) by (apply Rinv_0_lt_compat, pow_lt; lra). apply near_rnd; [lra|eapply lb_le; [exact K|lia]|]. split; [lra|]. rewrite Ropp_0, exp_0. lra. }
  rewrite (proj2 (Reqb_false (rnd64 (m / d)) 0)) by lra. discriminate.
Qed.
