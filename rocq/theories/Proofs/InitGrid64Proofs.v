From Coq Require Import List ZArith Reals Bool Arith Lia Lra.
From Flocq Require Import Core.
From Verif Require Import Model.Base Model.FastHJ Model.InitGrid Model.InitGrid64 Spec.Rounded Proofs.ListAux Proofs.MeshAux Proofs.GridIndex Proofs.SnapProofs Proofs.InitGridProofs.
Import ListNotations.
Local Open Scope R_scope.

Definition u53 := / 2 ^ 53.
Lemma eta_small h : bpow radix2 (-1000) <= h -> bpow radix2 (-1075) <= u53 * h / 1000.
Proof.
  intros H. change (-1075)%Z with (-75 + -1000)%Z. rewrite bpow_plus. unfold u53.
  assert (bpow radix2 (-75) <= / 2 ^ 53 / 1000) by (change (bpow radix2 (-75)) with (/ IZR (Z.pow_pos 2 75)); cbn; lra).
  pose proof (bpow_gt_0 radix2 (-1000)). pose proof (bpow_gt_0 radix2 (-75)).
  apply Rle_trans with (/ 2 ^ 53 / 1000 * bpow radix2 (-1000)); [apply Rmult_le_compat_r; lra|]. unfold Rdiv. nra.
Qed.
Section Axis.
Variables lo hi h : R.
Hypothesis Hn : bpow radix2 (-1000) <= h.
Let M := magnitude h (lo, hi).
Hypothesis Hr : resolved h (lo, hi).
Lemma h_pos : 0 < h.
Proof. pose proof (bpow_gt_0 radix2 (-1000)). lra. Qed.
Lemma M_ge : h <= M /\ Rabs lo <= M /\ Rabs hi <= M /\ Rabs (hi + h) + Rabs lo <= M /\ hi - lo + h <= M.
Proof.
  unfold M, magnitude. cbn [fst snd]. pose proof h_pos. pose proof (Rabs_pos lo). pose proof (Rabs_pos hi). pose proof (Rabs_triang hi h) as T. rewrite (Rabs_right h) in T by lra.
  pose proof (Rle_abs hi). pose proof (Rle_abs (- lo)) as L. rewrite Rabs_Ropp in L. repeat split; lra.
Qed.
Lemma rerr x c : Rabs x <= c * M -> 0 <= c -> Rabs (rnd64 x - x) <= u53 * (c + / 1000) * M.
Proof.
  intros X C. eapply Rle_trans; [apply err64|]. fold u53. pose proof (eta_small h Hn) as E. destruct M_ge as (G & _). pose proof h_pos. assert (0 < u53) by (unfold u53; lra).
  assert (u53 * Rabs x <= u53 * (c * M)) by (apply Rmult_le_compat_l; lra). assert (u53 * h <= u53 * M) by (apply Rmult_le_compat_l; lra). lra.
Qed.
Lemma u53_small : 0 < u53 < / 1000000.
Proof. unfold u53. lra. Qed.
Let q := (hi + h - lo) / h.
Let Q := rnd64 (rnd64 (rnd64 (hi + h) - lo) / h).
Lemma Q_close : Rabs (Q - q) * h <= / 2 ^ 51 * M.
Proof.
  destruct M_ge as (G1 & G2 & G3 & G4 & G5). pose proof h_pos as H. pose proof u53_small as US. pose proof (Rabs_pos lo) as L0. pose proof (Rabs_pos (hi + h)) as L1.
  set (T := rnd64 (hi + h)). assert (ET : Rabs (T - (hi + h)) <= u53 * (1 + / 1000) * M) by (apply rerr; lra).
  assert (UM : u53 * M <= M / 1000000) by nra.
  set (D := rnd64 (T - lo)) in *.
  assert (BT : Rabs (T - lo) <= (1 + 2 / 1000000) * M).
  { replace (T - lo) with ((T - (hi + h)) + (hi + h - lo)) by ring. eapply Rle_trans; [apply Rabs_triang|]. pose proof (Rabs_triang (hi + h) (- lo)) as X. rewrite Rabs_Ropp in X.
    replace (hi + h + - lo) with (hi + h - lo) in X by ring. nra. }
  assert (ED : Rabs (D - (T - lo)) <= u53 * (1 + 2 / 1000000 + / 1000) * M) by (apply rerr; lra).
  assert (BD : Rabs D <= (1 + 4 / 1000000) * M).
  { replace D with ((D - (T - lo)) + (T - lo)) by ring. eapply Rle_trans; [apply Rabs_triang|]. nra. }
  assert (EQ : Rabs (Q - D / h) * h <= u53 * (1 + 4 / 1000000 + / 1000) * M).
  { pose proof (err64 (D / h)) as E. fold D in E. change (rnd64 (D / h)) with Q in E. fold u53 in E. apply (Rmult_le_compat_r h) in E; [|lra].
    rewrite Rmult_plus_distr_r in E. replace (u53 * Rabs (D / h) * h) with (u53 * Rabs D) in E.
    2:{ unfold Rdiv. rewrite Rabs_mult, (Rabs_right (/ h)) by (apply Rle_ge; left; apply Rinv_0_lt_compat, H). field. lra. }
    assert (bpow radix2 (-1075) * h <= u53 * M / 1000).
    { assert (bpow radix2 (-1075) <= u53 / 1000) by (change (bpow radix2 (-1075)) with (/ IZR (Z.pow_pos 2 1075)); unfold u53; apply Rle_trans with (/ IZR (Z.pow_pos 2 75)); [apply Rinv_le_contravar; [apply IZR_lt; reflexivity|apply IZR_le; vm_compute; discriminate]|cbn; lra]).
      pose proof (bpow_gt_0 radix2 (-1075)). nra. }
    assert (u53 * Rabs D <= u53 * ((1 + 4 / 1000000) * M)) by (apply Rmult_le_compat_l; lra). lra. }
  assert (R1 : Rabs (Q - q) * h <= Rabs (Q - D / h) * h + Rabs (D - (T - lo)) + Rabs (T - (hi + h))).
  { replace (Rabs (Q - q) * h) with (Rabs ((Q - q) * h)) by (rewrite Rabs_mult, (Rabs_right h) by lra; reflexivity).
    replace ((Q - q) * h) with (((Q - D / h) * h + (D - (T - lo))) + (T - (hi + h))) by (unfold q; field; lra).
    eapply Rle_trans; [apply Rabs_triang|]. apply Rplus_le_compat_r. eapply Rle_trans; [apply Rabs_triang|]. apply Rplus_le_compat_r. rewrite Rabs_mult, (Rabs_right h) by lra. lra. }
  assert (F : / 2 ^ 51 = 4 * u53) by (unfold u53; lra). rewrite F. assert (0 < M) by lra. nra.
Qed.
Lemma q_val : 1 <= q /\ q * h = hi + h - lo.
Proof.
  pose proof h_pos as H. destruct Hr as [L _]. cbn [fst snd] in L. assert (E : q * h = hi + h - lo) by (unfold q; field; lra). split; [|exact E].
  apply (Rmult_le_reg_r h); [exact H|]. lra.
Qed.
Lemma Q_near : Rabs (Q - q) < 1 /\ 0 < Q.
Proof.
  pose proof h_pos as H. assert (A : Rabs (Q - q) < 1).
  { apply (Rmult_lt_reg_r h); [exact H|]. eapply Rle_lt_trans; [apply Q_close|]. destruct Hr as [_ R]. fold M in R. rewrite Rmult_1_l. apply (Rmult_lt_reg_l (2 ^ 51)); [lra|].
    rewrite <- Rmult_assoc, Rinv_r, Rmult_1_l by lra. exact R. }
  split; [exact A|]. destruct q_val as [q1 _]. apply Rabs_lt_inv in A. lra.
Qed.
Let n64 := n_nodes64 lo hi h.
Let n := n_nodes lo (hi + h) h.
Lemma n64_Z : Z.of_nat n64 = Zceil Q.
Proof.
  unfold n64, n_nodes64. fold Q. rewrite Z2Nat.id; [reflexivity|]. destruct Q_near as [_ P]. apply le_IZR. pose proof (ceil_bounds Q). lra.
Qed.
Lemma n_Z : Z.of_nat n = Zceil q.
Proof. unfold n, n_nodes. fold q. rewrite Z2Nat.id; [reflexivity|]. destruct q_val as [P _]. apply le_IZR. pose proof (ceil_bounds q). lra. Qed.
Lemma n64_vs_n : (n64 <= n + 1)%nat /\ (n <= n64 + 1)%nat.
Proof.
  destruct Q_near as [A _]. apply Rabs_lt_inv in A. pose proof (ceil_bounds Q) as B. pose proof (ceil_bounds q) as C. rewrite <- n64_Z in B. rewrite <- n_Z in C.
  assert (Z.of_nat n64 < Z.of_nat n + 2)%Z by (apply lt_IZR; rewrite plus_IZR; lra).
  assert (Z.of_nat n < Z.of_nat n64 + 2)%Z by (apply lt_IZR; rewrite plus_IZR; lra). lia.
Qed.
Lemma n64_exact : (forall z, / 2 ^ 51 * M < Rabs (hi - lo - IZR z * h)) -> n64 = n.
Proof.
  intros F. pose proof h_pos as H. assert (Zceil Q = Zceil q); [|pose proof n64_Z; pose proof n_Z; lia].
  apply Zceil_imp. pose proof (ceil_bounds q) as C. destruct q_val as [_ E]. pose proof Q_close as QC.
  assert (FZ : forall z, Rabs (Q - q) < Rabs (q - IZR z)).
  { intros z. apply (Rmult_lt_reg_r h); [exact H|]. eapply Rle_lt_trans; [exact QC|]. eapply Rlt_le_trans; [apply (F (z - 1)%Z)|].
    replace (Rabs (q - IZR z) * h) with (Rabs ((q - IZR z) * h)) by (rewrite Rabs_mult, (Rabs_right h) by lra; reflexivity).
    rewrite minus_IZR. replace ((q - IZR z) * h) with (q * h - IZR z * h) by ring. rewrite E. apply Req_le. f_equal. ring. }
  pose proof (FZ (Zceil q)) as F1. pose proof (FZ (Zceil q - 1)%Z) as F2. rewrite minus_IZR in *.
  rewrite (Rabs_left1 (q - IZR (Zceil q))) in F1 by lra. rewrite (Rabs_right (q - (IZR (Zceil q) - 1))) in F2 by lra.
  apply Rabs_lt_inv in F1. apply Rabs_lt_inv in F2. lra.
Qed.
Lemma n64_one : (1 <= n64)%nat.
Proof. destruct Q_near as [_ P]. pose proof (ceil_bounds Q) as B. rewrite <- n64_Z in B. assert (0 < Z.of_nat n64)%Z by (apply lt_IZR; lra). lia. Qed.
Lemma n64_pos : 0 <= INR (n64 - 1) * h < hi + h - lo + / 2 ^ 51 * M /\ hi - / 2 ^ 51 * M <= lo + INR (n64 - 1) * h.
Proof.
  pose proof n64_one as P. pose proof h_pos as H. destruct q_val as [_ E]. pose proof Q_close as QC. pose proof (ceil_bounds Q) as B. rewrite <- n64_Z, <- INR_IZR_INZ in B.
  rewrite minus_INR by lia. change (INR 1) with 1. assert (I1 : 1 <= INR n64) by (apply (le_INR 1); exact P).
  assert (QH : Rabs ((Q - q) * h) <= / 2 ^ 51 * M) by (rewrite Rabs_mult, (Rabs_right h) by lra; exact QC). apply Rabs_le_inv in QH.
  assert ((INR n64 - 1) * h < Q * h) by (apply Rmult_lt_compat_r; lra). assert (Q * h <= INR n64 * h) by (apply Rmult_le_compat_r; lra).
  assert (0 <= (INR n64 - 1) * h) by (apply Rmult_le_pos; lra). lra.
Qed.
Lemma node_err k : (k < n64)%nat -> Rabs (node64 lo h k - node lo h k) <= (7 / 2) * u53 * M /\ 0 <= INR k * h <= (1 + / 1000000) * M.
Proof.
  intros K. pose proof h_pos as H. destruct n64_pos as [[P1 P2] _]. destruct M_ge as (G1 & G2 & G3 & G4 & G5). pose proof u53_small as US.
  assert (F : / 2 ^ 51 = 4 * u53) by (unfold u53; lra). rewrite F in P2. assert (UM : u53 * M <= M / 1000000) by nra.
  assert (KH : 0 <= INR k * h <= INR (n64 - 1) * h).
  { split; [apply Rmult_le_pos; [apply pos_INR|lra]|]. apply Rmult_le_compat_r; [lra|]. apply le_INR. lia. }
  assert (KB : 0 <= INR k * h <= (1 + 4 / 1000000) * M) by lra.
  assert (KB' : INR k * h <= (1 + / 1000000) * M).
  { assert (4 * (u53 * M) <= M / 1000000) by (unfold u53; lra). lra. }
  set (a := rnd64 (INR k * h)). assert (EA : Rabs (a - INR k * h) <= u53 * (1 + / 1000000 + / 1000) * M) by (apply rerr; [rewrite Rabs_right; lra|lra]).
  assert (X : Rabs (a + lo) <= (2 + 4 / 1000000) * M).
  { replace (a + lo) with ((a - INR k * h) + INR k * h + lo) by ring. eapply Rle_trans; [apply Rabs_triang|]. pose proof (Rabs_triang (a - INR k * h) (INR k * h)) as T. rewrite (Rabs_right (INR k * h)) in T by lra.
    assert (u53 * (1 + / 1000000 + / 1000) * M <= 2 * (M / 1000000)) by nra. lra. }
  assert (EB : Rabs (rnd64 (a + lo) - (a + lo)) <= u53 * (2 + 4 / 1000000 + / 1000) * M) by (apply rerr; lra).
  split; [|lra]. unfold node64, node. fold a. replace (rnd64 (a + lo) - (lo + INR k * h)) with ((rnd64 (a + lo) - (a + lo)) + (a - INR k * h)) by ring.
  eapply Rle_trans; [apply Rabs_triang|]. assert (0 <= u53 * M) by nra. nra.
Qed.
Lemma shifted_err i k : (k < n64)%nat -> Rabs (shifted64 lo h i k - (node lo h k + shift h i)) <= 8 * u53 * M.
Proof.
  intros K. destruct (node_err k K) as [E KB]. pose proof h_pos as H. destruct M_ge as (G1 & G2 & G3 & G4 & G5). pose proof u53_small as US. assert (UM : 0 <= u53 * M <= M / 1000000) by nra.
  unfold shifted64, shift. destruct (Nat.odd i); [|rewrite Rplus_0_r; lra].
  set (b := rnd64 (h / 2)). assert (EB : Rabs (b - h / 2) <= u53 * (/ 2 + / 1000) * M) by (apply rerr; [rewrite Rabs_right; lra|lra]).
  set (x := node64 lo h k) in *. assert (X : Rabs (x + b) <= (5 / 2 + 10 / 1000000) * M).
  { replace (x + b) with ((x - node lo h k) + (b - h / 2) + (lo + (INR k * h + h / 2))) by (unfold node; field). eapply Rle_trans; [apply Rabs_triang|].
    pose proof (Rabs_triang (x - node lo h k) (b - h / 2)). pose proof (Rabs_triang lo (INR k * h + h / 2)) as T. rewrite (Rabs_right (INR k * h + h / 2)) in T by lra. lra. }
  assert (EC : Rabs (rnd64 (x + b) - (x + b)) <= u53 * (5 / 2 + 10 / 1000000 + / 1000) * M) by (apply rerr; lra).
  replace (rnd64 (x + b) - (node lo h k + h / 2)) with ((rnd64 (x + b) - (x + b)) + ((x - node lo h k) + (b - h / 2))) by ring.
  eapply Rle_trans; [apply Rabs_triang|]. pose proof (Rabs_triang (x - node lo h k) (b - h / 2)). nra.
Qed.
End Axis.

(** ---- the grid ---- *)
Lemma n_of_count lo h m : 0 < h -> (1 <= m)%nat -> n_nodes lo (lo + INR (m - 1) * h + h) h = m.
Proof.
  intros H M. unfold n_nodes. replace ((lo + INR (m - 1) * h + h - lo) / h) with (IZR (Z.of_nat m)).
  - rewrite Zceil_IZR. apply Nat2Z.id.
  - rewrite minus_INR by exact M. change (INR 1) with 1. rewrite <- INR_IZR_INZ. field. lra.
Qed.
Lemma Forall2_map_map {A B} (P : B -> B -> Prop) (f g : A -> B) l : (forall x, In x l -> P (f x) (g x)) -> Forall2 P (map f l) (map g l).
Proof. induction l as [|x l IH]; intros H; constructor; [apply H; left; reflexivity|]. apply IH. intros y Y. apply H. right. exact Y. Qed.
Lemma Forall2_flat_map {A B} (P : B -> B -> Prop) (f g : A -> list B) l : (forall x, In x l -> Forall2 P (f x) (g x)) -> Forall2 P (flat_map f l) (flat_map g l).
Proof. induction l as [|x l IH]; intros H; [constructor|]. cbn [flat_map]. apply Forall2_app; [apply H; left; reflexivity|]. apply IH. intros y Y. apply H. right. exact Y. Qed.
Definition rounded_box (h : R) (b : R * R) : R * R := (fst b, fst b + INR (n_nodes64 (fst b) (snd b) h - 1) * h).
Definition grid_tol (h : R) (bbox : list (R * R)) (k : nat) : R := / 2 ^ 50 * magnitude h (nth k bbox (0, 0)).
Lemma tol8 x : 8 * u53 * x = / 2 ^ 50 * x.
Proof. unfold u53. lra. Qed.
Lemma grid_near h bbox : length bbox = 2%nat \/ length bbox = 3%nat -> bpow radix2 (-1000) <= h -> Forall (resolved h) bbox ->
  Forall2 (close_to (grid_tol h bbox)) (create_staggered_grid64 h bbox) (create_staggered_grid h (map (rounded_box h) bbox)).
Proof.
  intros D Hn R. assert (H : 0 < h) by (pose proof (bpow_gt_0 radix2 (-1000)); lra).
  assert (AX : forall b, In b bbox -> n_nodes (fst (rounded_box h b)) (snd (rounded_box h b) + h) h = n_nodes64 (fst b) (snd b) h /\
    forall i k, (k < n_nodes64 (fst b) (snd b) h)%nat -> Rabs (shifted64 (fst b) h i k - (node (fst b) h k + shift h i)) <= / 2 ^ 50 * magnitude h b /\
                Rabs (node64 (fst b) h k - node (fst b) h k) <= / 2 ^ 50 * magnitude h b).
  { intros [lo hi] IN. rewrite Forall_forall in R. specialize (R _ IN). cbn [fst snd rounded_box]. split; [apply n_of_count; [exact H|]; exact (n64_one lo hi h Hn R)|].
    intros i k K. rewrite <- tol8. split; [exact (shifted_err lo hi h Hn R i k K)|]. pose proof (shifted_err lo hi h Hn R 0 k K) as X. unfold shifted64, shift in X. cbn [Nat.odd Nat.even negb] in X. rewrite Rplus_0_r in X. exact X. }
  destruct D as [D|D].
  - destruct bbox as [|b0 [|b1 [|]]]; try discriminate D. cbn [map create_staggered_grid create_staggered_grid64]. unfold staggered2, staggered2_64.
    destruct (AX b0) as [N0 E0]; [cbn; tauto|]. destruct (AX b1) as [N1 E1]; [cbn; tauto|]. rewrite N0, N1. cbn [rounded_box fst].
    apply Forall2_flat_map. intros i I. apply in_seq in I. apply Forall2_map_map. intros j J. apply in_seq in J. split; [reflexivity|]. intros k K. unfold grid_tol.
    destruct k as [|[|k]]; [| |cbn in K; lia]; cbn [nth]; [apply (E0 i i); lia|apply (E1 i j); lia].
  - destruct bbox as [|b0 [|b1 [|b2 [|]]]]; try discriminate D. cbn [map create_staggered_grid create_staggered_grid64]. unfold staggered3, staggered3_64.
    destruct (AX b0) as [N0 E0]; [cbn; tauto|]. destruct (AX b1) as [N1 E1]; [cbn; tauto|]. destruct (AX b2) as [N2 E2]; [cbn; tauto|]. rewrite N0, N1, N2. cbn [rounded_box fst].
    apply Forall2_flat_map. intros i I. apply in_seq in I. apply Forall2_flat_map. intros j J. apply in_seq in J. apply Forall2_map_map. intros l L. apply in_seq in L. split; [reflexivity|]. intros k K. unfold grid_tol.
    destruct k as [|[|[|k]]]; [| | |cbn in K; lia]; cbn [nth]; [apply (E0 i i); lia|apply (E1 i j); lia|apply (E2 i l); lia].
Qed.

(** ---- multiples of a power of two ---- *)
Lemma fmt_mult m e : (Z.abs m < 2 ^ 53)%Z -> (-1074 <= e)%Z -> rnd64 (IZR m * bpow radix2 e) = IZR m * bpow radix2 e.
Proof. intros M E. apply round_generic; [typeclasses eauto|]. apply generic_format_FLT. exists (Float radix2 m e); [reflexivity | exact M | exact E]. Qed.
Lemma ceil_quotient p c : (0 < c)%Z -> (0 <= p < 2 ^ 52)%Z -> (c < 2 ^ 50)%Z -> Zceil (rnd64 (IZR p / IZR c)) = Zceil (IZR p / IZR c).
Proof.
  intros C P C2. set (N := Zceil (IZR p / IZR c)). pose proof (ceil_bounds (IZR p / IZR c)) as B. fold N in B.
  assert (C0 : 0 < IZR c) by (apply IZR_lt; exact C). assert (C1 : 1 <= IZR c) by (apply IZR_le; lia).
  assert (P0 : 0 <= IZR p) by (apply IZR_le; lia). assert (P2 : IZR p < 2 ^ 52) by (replace (2 ^ 52)%R with (IZR (2 ^ 52)) by (cbn; lra); apply IZR_lt; lia).
  assert (CC : IZR c < 2 ^ 50) by (replace (2 ^ 50)%R with (IZR (2 ^ 50)) by (cbn; lra); apply IZR_lt; lia).
  assert (QP : 0 <= IZR p / IZR c <= IZR p).
  { split; [apply Rmult_le_pos; [lra|left; apply Rinv_0_lt_compat, C0]|]. apply (Rmult_le_reg_r (IZR c)); [exact C0|]. replace (IZR p / IZR c * IZR c) with (IZR p) by (field; lra). nra. }
  assert (NB : (0 <= N < 2 ^ 53)%Z).
  { assert (-1 < N)%Z by (apply lt_IZR; lra). split; [lia|]. apply lt_IZR. replace (IZR (2 ^ 53)) with (2 ^ 53)%R by (cbn; lra). lra. }
  apply Zceil_imp. split.
  - assert (LB : ((N - 1) * c + 1 <= p)%Z).
    { assert ((N - 1) * c < p)%Z; [|lia]. apply lt_IZR. rewrite mult_IZR, minus_IZR. apply (Rmult_lt_reg_r (/ IZR c)); [apply Rinv_0_lt_compat, C0|].
      replace ((IZR N - 1) * IZR c * / IZR c) with (IZR N - 1) by (field; lra). fold (IZR p / IZR c). lra. }
    apply IZR_le in LB. rewrite plus_IZR, mult_IZR in LB. rewrite minus_IZR in *.
    pose proof (err64 (IZR p / IZR c)) as E. apply Rabs_le_inv in E. rewrite (Rabs_right (IZR p / IZR c)) in E by lra.
    assert (ET : bpow radix2 (-1075) < / 2 ^ 60).
    { change (bpow radix2 (-1075)) with (/ IZR (Z.pow_pos 2 1075)). apply Rlt_le_trans with (/ IZR (Z.pow_pos 2 61)); [apply Rinv_lt_contravar; [apply Rmult_lt_0_compat; apply IZR_lt; reflexivity|apply IZR_lt; reflexivity]|cbn; lra]. }
    apply (Rmult_lt_reg_r (IZR c)); [exact C0|].
    set (x := IZR p / IZR c) in *. assert (XC : x * IZR c = IZR p) by (unfold x; field; lra). set (r := rnd64 x) in *. clearbody r x.
    assert (A1 : (x - / 2 ^ 53 * x - bpow radix2 (-1075)) * IZR c <= r * IZR c) by (apply Rmult_le_compat_r; lra).
    replace ((x - / 2 ^ 53 * x - bpow radix2 (-1075)) * IZR c) with (x * IZR c - / 2 ^ 53 * (x * IZR c) - bpow radix2 (-1075) * IZR c) in A1 by ring. rewrite XC in A1.
    pose proof (bpow_gt_0 radix2 (-1075)) as B0. set (et := bpow radix2 (-1075)) in *. clearbody et. assert (et * IZR c <= / 2 ^ 60 * 2 ^ 50) by (apply Rmult_le_compat; lra). lra.
  - rewrite <- (Rmult_1_r (IZR N)). change 1 with (bpow radix2 0). rewrite <- (fmt_mult N 0) by lia. apply rnd64_le. change (bpow radix2 0) with 1. lra.
Qed.
Section Exact.
Variables (a b c e : Z).
Hypothesis A : (Z.abs a < 2 ^ 50)%Z.
Hypothesis B : (Z.abs b < 2 ^ 50)%Z.
Hypothesis C : (0 < c < 2 ^ 50)%Z.
Hypothesis AB : (a <= b)%Z.
Hypothesis E : (-1073 <= e)%Z.
Let g := bpow radix2 e.
Lemma g_pos : 0 < g. Proof. apply bpow_gt_0. Qed.
Lemma exact_sum : (IZR b * g + IZR c * g) = IZR (b + c) * g. Proof. rewrite plus_IZR. ring. Qed.
Lemma exact_quot p : IZR p * g / (IZR c * g) = IZR p / IZR c.
Proof. pose proof g_pos. assert (0 < IZR c) by (apply IZR_lt; lia). field. lra. Qed.
Lemma exact_n : n_nodes64 (IZR a * g) (IZR b * g) (IZR c * g) = n_nodes (IZR a * g) (IZR b * g + IZR c * g) (IZR c * g).
Proof.
  unfold n_nodes64, n_nodes. rewrite exact_sum. unfold g at 1. rewrite fmt_mult by lia. fold g.
  replace (IZR (b + c) * g - IZR a * g) with (IZR (b + c - a) * g) by (rewrite minus_IZR; ring). unfold g at 1. rewrite fmt_mult by lia. fold g.
  rewrite !exact_quot. f_equal. apply ceil_quotient; lia.
Qed.
Lemma exact_index k : (k < n_nodes (IZR a * g) (IZR b * g + IZR c * g) (IZR c * g))%nat -> (0 <= Z.of_nat k * c < b + c - a)%Z.
Proof.
  intros K. split; [nia|]. assert (NB : (Z.of_nat k < Zceil (IZR (b + c - a) / IZR c))%Z).
  { unfold n_nodes in K. rewrite exact_sum in K. replace (IZR (b + c) * g - IZR a * g) with (IZR (b + c - a) * g) in K by (rewrite minus_IZR; ring). rewrite exact_quot in K. lia. }
  pose proof (ceil_bounds (IZR (b + c - a) / IZR c)) as CB. assert (C0 : 0 < IZR c) by (apply IZR_lt; lia).
  assert (KB : IZR (Z.of_nat k) <= IZR (Zceil (IZR (b + c - a) / IZR c)) - 1) by (rewrite <- minus_IZR; apply IZR_le; lia).
  apply lt_IZR. rewrite mult_IZR. apply (Rmult_lt_reg_r (/ IZR c)); [apply Rinv_0_lt_compat, C0|]. replace (IZR (Z.of_nat k) * IZR c * / IZR c) with (IZR (Z.of_nat k)) by (field; lra).
  fold (IZR (b + c - a) / IZR c). lra.
Qed.
Lemma exact_node k : (k < n_nodes (IZR a * g) (IZR b * g + IZR c * g) (IZR c * g))%nat -> node64 (IZR a * g) (IZR c * g) k = node (IZR a * g) (IZR c * g) k.
Proof.
  intros K. apply exact_index in K. unfold node64, node. rewrite INR_IZR_INZ. replace (IZR (Z.of_nat k) * (IZR c * g)) with (IZR (Z.of_nat k * c) * g) by (rewrite mult_IZR; ring).
  unfold g at 1. rewrite fmt_mult by lia. fold g. replace (IZR (Z.of_nat k * c) * g + IZR a * g) with (IZR (Z.of_nat k * c + a) * g) by (rewrite plus_IZR; ring).
  unfold g at 1. rewrite fmt_mult by lia. fold g. rewrite plus_IZR. ring.
Qed.
Lemma exact_shifted i k : (k < n_nodes (IZR a * g) (IZR b * g + IZR c * g) (IZR c * g))%nat ->
  shifted64 (IZR a * g) (IZR c * g) i k = node (IZR a * g) (IZR c * g) k + shift (IZR c * g) i.
Proof.
  intros K. unfold shifted64, shift. rewrite exact_node by exact K. apply exact_index in K. destruct (Nat.odd i); [|ring].
  set (g2 := bpow radix2 (e - 1)). assert (G2 : g = 2 * g2).
  { unfold g, g2. replace e with (e - 1 + 1)%Z at 1 by ring. rewrite bpow_plus. change (bpow radix2 1) with 2. ring. }
  replace (IZR c * g / 2) with (IZR c * g2) by (rewrite G2; field). unfold g2 at 1. rewrite fmt_mult by lia. fold g2. unfold node. rewrite INR_IZR_INZ.
  replace (IZR a * g + IZR (Z.of_nat k) * (IZR c * g) + IZR c * g2) with (IZR (2 * (a + Z.of_nat k * c) + c) * g2) by (rewrite G2, plus_IZR, !mult_IZR, plus_IZR, mult_IZR; ring).
  apply fmt_mult; lia.
Qed.
End Exact.
Lemma flat_map_ext_in' {A B} (f g : A -> list B) l : (forall x, In x l -> f x = g x) -> flat_map f l = flat_map g l.
Proof. induction l as [|x l IH]; intros H; [reflexivity|]. cbn [flat_map]. rewrite (H x) by (left; reflexivity). rewrite IH; [reflexivity|]. intros y Y. apply H. right. exact Y. Qed.
Lemma grid_exact h bbox e : length bbox = 2%nat \/ length bbox = 3%nat -> (-1073 <= e)%Z -> 0 < h -> multiple_of (bpow radix2 e) h ->
  (forall b, In b bbox -> fst b <= snd b /\ multiple_of (bpow radix2 e) (fst b) /\ multiple_of (bpow radix2 e) (snd b)) ->
  create_staggered_grid64 h bbox = create_staggered_grid h bbox.
Proof.
  intros D E H (c & EC & CB) Hb. set (g := bpow radix2 e) in *. assert (G : 0 < g) by apply bpow_gt_0.
  assert (C0 : (0 < c)%Z) by (apply lt_IZR; apply (Rmult_lt_reg_r g); [exact G|]; lra).
  assert (AX : forall b, In b bbox -> n_nodes64 (fst b) (snd b) h = n_nodes (fst b) (snd b + h) h /\
    forall k, (k < n_nodes (fst b) (snd b + h) h)%nat -> node64 (fst b) h k = node (fst b) h k /\ forall i, shifted64 (fst b) h i k = node (fst b) h k + shift h i).
  { intros [lo hi] IN. destruct (Hb _ IN) as (L & (a & EA & AB) & (z & EZ & ZB)). cbn [fst snd] in *. subst lo hi h.
    assert (LE : (a <= z)%Z) by (apply le_IZR; apply (Rmult_le_reg_r g); [exact G|exact L]).
    split; [apply exact_n; lia|]. intros k K. split; [apply (exact_node a z c e); first [lia|exact K]|]. intros i. apply (exact_shifted a z c e); first [lia|exact K]. }
  destruct D as [D|D].
  - destruct bbox as [|b0 [|b1 [|]]]; try discriminate D. cbn [create_staggered_grid create_staggered_grid64]. unfold staggered2, staggered2_64.
    destruct (AX b0) as [N0 E0]; [cbn; tauto|]. destruct (AX b1) as [N1 E1]; [cbn; tauto|]. rewrite N0, N1.
    apply flat_map_ext_in'. intros i I. apply in_seq in I. apply map_ext_in. intros j J. apply in_seq in J. rewrite (proj1 (E0 i ltac:(lia))), (proj2 (E1 j ltac:(lia)) i). reflexivity.
  - destruct bbox as [|b0 [|b1 [|b2 [|]]]]; try discriminate D. cbn [create_staggered_grid create_staggered_grid64]. unfold staggered3, staggered3_64.
    destruct (AX b0) as [N0 E0]; [cbn; tauto|]. destruct (AX b1) as [N1 E1]; [cbn; tauto|]. destruct (AX b2) as [N2 E2]; [cbn; tauto|]. rewrite N0, N1, N2.
    apply flat_map_ext_in'. intros i I. apply in_seq in I. apply flat_map_ext_in'. intros j J. apply in_seq in J. apply map_ext_in. intros l L. apply in_seq in L.
    rewrite (proj1 (E0 i ltac:(lia))), (proj2 (E1 j ltac:(lia)) i), (proj2 (E2 l ltac:(lia)) i). reflexivity.
Qed.
