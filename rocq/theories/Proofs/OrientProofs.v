(** Rounding errors of signed volumes. *)
From Coq Require Import List ZArith Reals Lia Lra.
From Flocq Require Import Core Plus_error Relative.
From Verif Require Import Model.Base Model.FastHJ Model.SDF Model.Simplex Model.Orient Proofs.GridIndex Proofs.SnapProofs Proofs.RoundProofs.
Import ListNotations.
Local Open Scope R_scope.

Lemma diff_err x y W : fmt64 x -> fmt64 y -> Rabs (x - y) <= W -> Rabs (rnd64 (x - y) - (x - y)) <= u * W.
Proof.
  intros X Y H. assert (Y' : fmt64 (- y)) by (apply generic_format_opp; exact Y).
  assert (PP : Prec_gt_0 53) by (unfold Prec_gt_0; lia).
  destruct (FLT_plus_error_N_ex radix2 (-1074) 53 (fun n => negb (Z.even n)) x (- y) X Y') as (e & E & Q).
  change (round radix2 (FLT_exp (-1074) 53) (Znearest (fun n => negb (Z.even n))) (x + - y)) with (rnd64 (x - y)) in Q. rewrite Q.
  replace ((x + - y) * (1 + e) - (x - y)) with (e * (x - y)) by ring. rewrite Rabs_mult. apply Rmult_le_compat; [apply Rabs_pos | apply Rabs_pos | | exact H].
  eapply Rle_trans; [exact E|]. unfold u_ro. change (bpow radix2 (- (53) + 1)) with (/ 4503599627370496). unfold u. 
  apply Rle_trans with (/ 2 * / 4503599627370496 / 1); [| lra]. unfold Rdiv. apply Rmult_le_compat_l; [lra|]. apply Rinv_le_contravar; lra.
Qed.
Lemma mul_near a' a b' b ea eb A B : Rabs (a' - a) <= ea -> Rabs (b' - b) <= eb -> Rabs a <= A -> Rabs b <= B ->
  Rabs (a' * b' - a * b) <= ea * B + A * eb + ea * eb.
Proof.
  intros HA HB LA LB. replace (a' * b' - a * b) with ((a' - a) * b + a * (b' - b) + (a' - a) * (b' - b)) by ring.
  eapply Rle_trans; [apply Rabs_triang|]. apply Rplus_le_compat; [eapply Rle_trans; [apply Rabs_triang|]; apply Rplus_le_compat|]; rewrite Rabs_mult; apply Rmult_le_compat; assumption || apply Rabs_pos.
Qed.
Lemma det_near a' b' c' d' a b c d X Y : 0 <= X -> 0 <= Y -> Rabs a <= X -> Rabs c <= X -> Rabs b <= Y -> Rabs d <= Y ->
  Rabs (a' - a) <= u * X -> Rabs (c' - c) <= u * X -> Rabs (b' - b) <= u * Y -> Rabs (d' - d) <= u * Y ->
  Rabs (det64 a' b' c' d' - (a * d - b * c)) <= 9 * u * (X * Y) + 4 * eta /\ Rabs (a * d - b * c) <= 2 * (X * Y).
Proof.
  intros PX PY LA LC LB LD A C B D. pose proof (mul_near _ _ _ _ _ _ _ _ A D LA LD) as P. pose proof (mul_near _ _ _ _ _ _ _ _ B C LB LC) as Q.
  assert (U : u = / 9007199254740992) by reflexivity. pose proof eta_bound as E. assert (V0 : 0 <= X * Y) by (apply Rmult_le_pos; assumption).
  assert (AD : Rabs (a * d) <= X * Y) by (rewrite Rabs_mult; apply Rmult_le_compat; assumption || apply Rabs_pos).
  assert (BC : Rabs (b * c) <= X * Y) by (rewrite Rabs_mult, (Rmult_comm X); apply Rmult_le_compat; assumption || apply Rabs_pos).
  set (V := X * Y) in *. assert (P' : Rabs (a' * d' - a * d) <= (2 * u + u * u) * V) by (eapply Rle_trans; [exact P|]; unfold V; apply Req_le; ring).
  assert (Q' : Rabs (b' * c' - b * c) <= (2 * u + u * u) * V) by (eapply Rle_trans; [exact Q|]; unfold V; apply Req_le; ring). clear P Q. clearbody V.
  unfold det64. pose proof (err (a' * d')) as R1. pose proof (err (b' * c')) as R2. set (p := rnd64 (a' * d')) in *. set (q := rnd64 (b' * c')) in *. pose proof (err (p - q)) as R3.
  set (m := rnd64 (p - q)) in *. apply Rabs_le_inv in AD, BC, P', Q'.
  assert (M1 : Rabs (a' * d') <= (1 + 3 * u) * V) by (apply Rabs_le; rewrite U in *; lra).
  assert (M2 : Rabs (b' * c') <= (1 + 3 * u) * V) by (apply Rabs_le; rewrite U in *; lra).
  assert (R1' : Rabs (p - a' * d') <= u * ((1 + 3 * u) * V) + eta) by (eapply Rle_trans; [exact R1|]; apply Rplus_le_compat_r, Rmult_le_compat_l; [rewrite U; lra | exact M1]).
  assert (R2' : Rabs (q - b' * c') <= u * ((1 + 3 * u) * V) + eta) by (eapply Rle_trans; [exact R2|]; apply Rplus_le_compat_r, Rmult_le_compat_l; [rewrite U; lra | exact M2]).
  apply Rabs_le_inv in R1', R2'. assert (M3 : Rabs (p - q) <= (2 + 10 * u) * V + 2 * eta) by (apply Rabs_le; rewrite U in *; lra).
  assert (R3' : Rabs (m - (p - q)) <= u * ((2 + 10 * u) * V + 2 * eta) + eta) by (eapply Rle_trans; [exact R3|]; apply Rplus_le_compat_r, Rmult_le_compat_l; [rewrite U; lra | exact M3]).
  apply Rabs_le_inv in R3'. split; apply Rabs_le; [| lra]. rewrite U in *. lra.
Qed.
(** the corners of a simplex lie in a box of the sides X, Y (, Z) *)
Definition within (c : nat) (W : R) (s : list (list R)) : Prop := forall a b, In a s -> In b s -> Rabs (nth c a 0 - nth c b 0) <= W.
Definition doubles (s : list (list R)) : Prop := forall a x, In a s -> In x a -> fmt64 x.
Lemma vol2_err s X Y : length s = 3%nat -> (forall a, In a s -> length a = 2%nat) -> doubles s -> within 0 X s -> within 1 Y s ->
  Rabs (simp_vol64 s - simp_vol s) <= / 2 ^ 50 * (X * Y) + / 2 ^ 1073.
Proof.
  intros L D F HX HY. destruct s as [|p0 [|p1 [|p2 [|? ?]]]]; try discriminate L.
  assert (I0 : In p0 [p0;p1;p2]) by (left; reflexivity). assert (I1 : In p1 [p0;p1;p2]) by (right; left; reflexivity). assert (I2 : In p2 [p0;p1;p2]) by (right; right; left; reflexivity).
  pose proof (D p0 I0) as D0. pose proof (D p1 I1) as D1. pose proof (D p2 I2) as D2.
  destruct p0 as [|x0 [|y0 [|? ?]]]; try discriminate D0. destruct p1 as [|x1 [|y1 [|? ?]]]; try discriminate D1. destruct p2 as [|x2 [|y2 [|? ?]]]; try discriminate D2.
  pose proof (HX _ _ I1 I0) as X1. pose proof (HX _ _ I2 I0) as X2. pose proof (HY _ _ I1 I0) as Y1. pose proof (HY _ _ I2 I0) as Y2. cbn [nth] in X1, X2, Y1, Y2.
  assert (PX : 0 <= X) by (eapply Rle_trans; [apply Rabs_pos | exact X1]). assert (PY : 0 <= Y) by (eapply Rle_trans; [apply Rabs_pos | exact Y1]).
  assert (F0 : fmt64 x0 /\ fmt64 y0) by (split; apply (F _ _ I0); cbn; tauto). assert (F1 : fmt64 x1 /\ fmt64 y1) by (split; apply (F _ _ I1); cbn; tauto).
  assert (F2 : fmt64 x2 /\ fmt64 y2) by (split; apply (F _ _ I2); cbn; tauto). destruct F0, F1, F2.
  unfold simp_vol64, simp_vol.
  destruct (det_near (rnd64 (x1 - x0)) (rnd64 (y1 - y0)) (rnd64 (x2 - x0)) (rnd64 (y2 - y0)) (x1 - x0) (y1 - y0) (x2 - x0) (y2 - y0) X Y) as [N M]; try assumption; try (apply diff_err; assumption).
  set (m := det64 _ _ _ _) in *. set (e := (x1 - x0) * (y2 - y0) - (y1 - y0) * (x2 - x0)) in *. pose proof (err (m / 2)) as R. set (h := rnd64 (m / 2)) in *.
  assert (V0 : 0 <= X * Y) by (apply Rmult_le_pos; assumption). set (V := X * Y) in *. clearbody V m e h.
  assert (U : u = / 9007199254740992) by reflexivity. pose proof eta_bound as E. replace (/ 2 ^ 50) with (8 * u) by (rewrite U; lra).
  replace (/ 2 ^ 1073) with (4 * eta) by (unfold eta; replace (2 ^ 1075) with (4 * 2 ^ 1073) by (rewrite <- (pow_add 2 2 1073) || (replace 4 with (2 ^ 2) by ring; rewrite <- pow_add); reflexivity);
    rewrite Rinv_mult; pose proof (pow_lt 2 1073 ltac:(lra)); field; lra).
  apply Rabs_le_inv in N, M. assert (M2 : Rabs (m / 2) <= (1 + 5 * u) * V + 2 * eta) by (apply Rabs_le; rewrite U in *; lra).
  assert (R' : Rabs (h - m / 2) <= u * ((1 + 5 * u) * V + 2 * eta) + eta) by (eapply Rle_trans; [exact R|]; apply Rplus_le_compat_r, Rmult_le_compat_l; [rewrite U; lra | exact M2]).
  apply Rabs_le_inv in R'. apply Rabs_le. rewrite U in *. lra.
Qed.

Lemma term_near m t d' d V W : 0 <= V -> 0 <= W -> Rabs (m - t) <= 9 * u * V + 4 * eta -> Rabs t <= 2 * V -> Rabs d <= W -> Rabs (d' - d) <= u * W ->
  Rabs (rnd64 (m * d') - t * d) <= 14 * u * (V * W) + 5 * eta * W + eta /\ Rabs (t * d) <= 2 * (V * W).
Proof.
  intros PV PW M T D D'. pose proof (mul_near _ _ _ _ _ _ _ _ M D' T D) as P. assert (U : u = / 9007199254740992) by reflexivity. pose proof eta_bound as E.
  assert (V0 : 0 <= V * W) by (apply Rmult_le_pos; assumption). assert (E0 : 0 <= eta * W) by (apply Rmult_le_pos; lra).
  assert (TD : Rabs (t * d) <= 2 * (V * W)) by (rewrite Rabs_mult; replace (2 * (V * W)) with (2 * V * W) by ring; apply Rmult_le_compat; assumption || apply Rabs_pos).
  split; [| exact TD]. assert (P' : Rabs (m * d' - t * d) <= (11 * u + 9 * u * u) * (V * W) + (4 + 4 * u) * (eta * W)) by (eapply Rle_trans; [exact P|]; apply Req_le; ring).
  replace (5 * eta * W) with (5 * (eta * W)) by ring. set (G := V * W) in *. set (H := eta * W) in *. pose proof (err (m * d')) as R. clearbody G H. apply Rabs_le_inv in P', TD.
  assert (N : Rabs (m * d') <= (2 + 12 * u) * G + 5 * H) by (apply Rabs_le; rewrite U in *; lra).
  assert (R' : Rabs (rnd64 (m * d') - m * d') <= u * ((2 + 12 * u) * G + 5 * H) + eta) by (eapply Rle_trans; [exact R|]; apply Rplus_le_compat_r, Rmult_le_compat_l; [rewrite U; lra | exact N]).
  apply Rabs_le_inv in R'. apply Rabs_le. rewrite U in *. lra.
Qed.
Lemma vol3_err s X Y Z : length s = 4%nat -> (forall a, In a s -> length a = 3%nat) -> doubles s -> within 0 X s -> within 1 Y s -> within 2 Z s ->
  Rabs (simp_vol64 s - simp_vol s) <= / 2 ^ 49 * (X * Y * Z) + / 2 ^ 1074 * (1 + X + Y + Z).
Proof.
  intros L D F HX HY HZ. destruct s as [|p0 [|p1 [|p2 [|p3 [|? ?]]]]]; try discriminate L.
  assert (I0 : In p0 [p0;p1;p2;p3]) by (cbn; tauto). assert (I1 : In p1 [p0;p1;p2;p3]) by (cbn; tauto). assert (I2 : In p2 [p0;p1;p2;p3]) by (cbn; tauto). assert (I3 : In p3 [p0;p1;p2;p3]) by (cbn; tauto).
  pose proof (D p0 I0) as D0. pose proof (D p1 I1) as D1. pose proof (D p2 I2) as D2. pose proof (D p3 I3) as D3.
  destruct p0 as [|x0 [|y0 [|z0 [|? ?]]]]; try discriminate D0. destruct p1 as [|x1 [|y1 [|z1 [|? ?]]]]; try discriminate D1. destruct p2 as [|x2 [|y2 [|z2 [|? ?]]]]; try discriminate D2.
  destruct p3 as [|x3 [|y3 [|z3 [|? ?]]]]; try discriminate D3.
  pose proof (HX _ _ I1 I0) as X1. pose proof (HX _ _ I2 I0) as X2. pose proof (HX _ _ I3 I0) as X3. pose proof (HY _ _ I1 I0) as Y1. pose proof (HY _ _ I2 I0) as Y2. pose proof (HY _ _ I3 I0) as Y3.
  pose proof (HZ _ _ I1 I0) as Z1. pose proof (HZ _ _ I2 I0) as Z2. pose proof (HZ _ _ I3 I0) as Z3. cbn [nth] in X1, X2, X3, Y1, Y2, Y3, Z1, Z2, Z3.
  assert (PX : 0 <= X) by (eapply Rle_trans; [apply Rabs_pos | exact X1]). assert (PY : 0 <= Y) by (eapply Rle_trans; [apply Rabs_pos | exact Y1]). assert (PZ : 0 <= Z) by (eapply Rle_trans; [apply Rabs_pos | exact Z1]).
  assert (F0 : fmt64 x0 /\ fmt64 y0 /\ fmt64 z0) by (repeat split; apply (F _ _ I0); cbn; tauto). assert (F1 : fmt64 x1 /\ fmt64 y1 /\ fmt64 z1) by (repeat split; apply (F _ _ I1); cbn; tauto).
  assert (F2 : fmt64 x2 /\ fmt64 y2 /\ fmt64 z2) by (repeat split; apply (F _ _ I2); cbn; tauto). assert (F3 : fmt64 x3 /\ fmt64 y3 /\ fmt64 z3) by (repeat split; apply (F _ _ I3); cbn; tauto).
  clear HX HY HZ F D. destruct F0 as (?&?&?), F1 as (?&?&?), F2 as (?&?&?), F3 as (?&?&?). unfold simp_vol64, simp_vol.
  destruct (det_near (rnd64 (y1 - y0)) (rnd64 (z1 - z0)) (rnd64 (y2 - y0)) (rnd64 (z2 - z0)) (y1 - y0) (z1 - z0) (y2 - y0) (z2 - z0) Y Z) as [NA MA]; try assumption; try (apply diff_err; assumption).
  destruct (det_near (rnd64 (z1 - z0)) (rnd64 (x1 - x0)) (rnd64 (z2 - z0)) (rnd64 (x2 - x0)) (z1 - z0) (x1 - x0) (z2 - z0) (x2 - x0) Z X) as [NB MB]; try assumption; try (apply diff_err; assumption).
  destruct (det_near (rnd64 (x1 - x0)) (rnd64 (y1 - y0)) (rnd64 (x2 - x0)) (rnd64 (y2 - y0)) (x1 - x0) (y1 - y0) (x2 - x0) (y2 - y0) X Y) as [NC MC]; try assumption; try (apply diff_err; assumption).
  destruct (term_near _ _ (rnd64 (x3 - x0)) (x3 - x0) _ X (Rmult_le_pos _ _ PY PZ) PX NA MA X3) as [TA SA]; [apply diff_err; assumption|].
  destruct (term_near _ _ (rnd64 (y3 - y0)) (y3 - y0) _ Y (Rmult_le_pos _ _ PZ PX) PY NB MB Y3) as [TB SB]; [apply diff_err; assumption|].
  destruct (term_near _ _ (rnd64 (z3 - z0)) (z3 - z0) _ Z (Rmult_le_pos _ _ PX PY) PZ NC MC Z3) as [TC SC]; [apply diff_err; assumption|].
  cbv zeta. set (A := rnd64 (det64 (rnd64 (y1 - y0)) _ _ _ * _)) in *. set (B := rnd64 (det64 (rnd64 (z1 - z0)) _ _ _ * _)) in *. set (C := rnd64 (det64 (rnd64 (x1 - x0)) _ _ _ * _)) in *.
  set (a := ((y1 - y0) * (z2 - z0) - (z1 - z0) * (y2 - y0)) * (x3 - x0)) in *. set (b := ((z1 - z0) * (x2 - x0) - (x1 - x0) * (z2 - z0)) * (y3 - y0)) in *.
  set (c := ((x1 - x0) * (y2 - y0) - (y1 - y0) * (x2 - x0)) * (z3 - z0)) in *.
  assert (V0 : 0 <= X * Y * Z) by (repeat apply Rmult_le_pos; assumption). set (V := X * Y * Z) in *.
  replace (Y * Z * X) with V in TA, SA by (unfold V; ring). replace (Z * X * Y) with V in TB, SB by (unfold V; ring).
  assert (U : u = / 9007199254740992) by reflexivity. pose proof eta_bound as E. clear NA MA NB MB NC MC.
  assert (HX0 : 0 <= eta * X) by (apply Rmult_le_pos; lra). assert (HY0 : 0 <= eta * Y) by (apply Rmult_le_pos; lra). assert (HZ0 : 0 <= eta * Z) by (apply Rmult_le_pos; lra).
  replace (/ 2 ^ 49) with (16 * u) by (rewrite U; lra).
  replace (/ 2 ^ 1074 * (1 + X + Y + Z)) with (2 * eta + 2 * (eta * X) + 2 * (eta * Y) + 2 * (eta * Z)).
  2:{ replace (/ 2 ^ 1074) with (2 * eta); [ring|]. unfold eta. change (2 ^ 1075) with (2 * 2 ^ 1074). rewrite Rinv_mult. pose proof (pow_lt 2 1074 ltac:(lra)). field; lra. }
  rewrite (Rmult_assoc 5 eta) in TA, TB, TC. set (hx := eta * X) in *. set (hy := eta * Y) in *. set (hz := eta * Z) in *.
  pose proof (err (A + B)) as R1. set (AB := rnd64 (A + B)) in *. pose proof (err (AB + C)) as R2. set (ABC := rnd64 (AB + C)) in *. pose proof (err (ABC / 6)) as R3. set (f := rnd64 (ABC / 6)) in *.
  clearbody V hx hy hz f ABC AB A B C a b c. apply Rabs_le_inv in TA, TB, TC, SA, SB, SC. set (q := 5 * (hx + hy + hz) + 3 * eta) in *.
  assert (Q0 : 0 <= q) by (unfold q; lra).
  assert (M1 : Rabs (A + B) <= 5 * V + q) by (apply Rabs_le; unfold q; rewrite U in *; lra).
  assert (R1' : Rabs (AB - (A + B)) <= u * (5 * V + q) + eta) by (eapply Rle_trans; [exact R1|]; apply Rplus_le_compat_r, Rmult_le_compat_l; [rewrite U; lra | exact M1]).
  apply Rabs_le_inv in R1'. assert (M2 : Rabs (AB + C) <= 7 * V + 2 * q) by (apply Rabs_le; unfold q in *; rewrite U in *; lra).
  assert (R2' : Rabs (ABC - (AB + C)) <= u * (7 * V + 2 * q) + eta) by (eapply Rle_trans; [exact R2|]; apply Rplus_le_compat_r, Rmult_le_compat_l; [rewrite U; lra | exact M2]).
  apply Rabs_le_inv in R2'. assert (M3 : Rabs (ABC / 6) <= 2 * V + q) by (apply Rabs_le; unfold q in *; rewrite U in *; lra).
  assert (R3' : Rabs (f - ABC / 6) <= u * (2 * V + q) + eta) by (eapply Rle_trans; [exact R3|]; apply Rplus_le_compat_r, Rmult_le_compat_l; [rewrite U; lra | exact M3]).
  apply Rabs_le_inv in R3'. apply Rabs_le. unfold q in *. rewrite U in *. lra.
Qed.
