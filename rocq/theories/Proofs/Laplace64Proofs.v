(** Rounding errors of laplacian2. *)
From Coq Require Import List ZArith Reals Bool Arith Lia Lra Permutation.
From Flocq Require Import Core.
From Verif Require Import Model.Base Model.FastHJ Model.SDF Model.Simplex Model.Mesh Model.Laplace Model.Laplace64 Spec.MeshTopo Spec.Smooth Proofs.ListAux Proofs.MeshAux
  Proofs.EdgeProofs Proofs.TopoProofs Proofs.LaplaceProofs Proofs.GridIndex Proofs.SnapProofs Proofs.RoundProofs Proofs.ConvergeProofs.
Import ListNotations.
Local Open Scope R_scope.

Lemma u_pos : 0 < u. Proof. unfold u. lra. Qed.
Lemma g_ge1 n : 1 <= (1 + u) ^ n.
Proof. apply pow_R1_Rle. pose proof u_pos. lra. Qed.

Lemma sum64_err_from M l : 0 <= M -> (forall x, In x l -> Rabs x <= M) -> forall i s S, Rabs S <= INR i * M ->
  Rabs (s - S) <= INR i * (M * ((1 + u) ^ i - 1) + eta * (1 + u) ^ i) ->
  let n := (i + length l)%nat in
  Rabs (fold_left (fun s x => rnd64 (s + x)) l s - (S + rtotal l)) <= INR n * (M * ((1 + u) ^ n - 1) + eta * (1 + u) ^ n) /\
  Rabs (S + rtotal l) <= INR n * M.
Proof.
  intros MP. induction l as [|x l IH]; intros HM i s S HS HE; cbv zeta.
  - cbn [length fold_left]. unfold rtotal; cbn [fold_right]. rewrite Nat.add_0_r, Rplus_0_r. split; assumption.
  - cbn [length fold_left]. replace (i + Datatypes.S (length l))%nat with (Datatypes.S i + length l)%nat by lia.
    replace (S + rtotal (x :: l)) with ((S + x) + rtotal l) by (unfold rtotal; cbn [fold_right]; ring).
    assert (Rabs x <= M) as HX by (apply HM; left; reflexivity).
    assert (INR (Datatypes.S i) = INR i + 1) as SI by apply S_INR.
    assert (0 <= INR i) as IP by apply pos_INR.
    apply IH; [intros y Hy; apply HM; right; exact Hy| |].
    + rewrite SI. eapply Rle_trans; [apply Rabs_triang|]. lra.
    + pose proof (err (s + x)) as E. pose proof u_pos as UP. pose proof eta_bound as [EP _].
      pose proof (g_ge1 i) as G1. set (g := (1 + u) ^ i) in *. cbn [pow]. fold g.
      assert (Rabs (s + x) <= (INR i + 1) * M + INR i * (M * (g - 1) + eta * g)) as A.
      { replace (s + x) with ((s - S) + (S + x)) by ring. eapply Rle_trans; [apply Rabs_triang|]. pose proof (Rabs_triang S x). lra. }
      replace (rnd64 (s + x) - (S + x)) with ((rnd64 (s + x) - (s + x)) + (s - S)) by ring. eapply Rle_trans; [apply Rabs_triang|].
      assert (u * Rabs (s + x) <= u * ((INR i + 1) * M + INR i * (M * (g - 1) + eta * g))) as B by (apply Rmult_le_compat_l; lra).
      rewrite SI. set (I := INR i) in *.
      assert (0 <= M * (g - 1)) by (apply Rmult_le_pos; lra).
      assert (0 <= u * (M * (g - 1))) by (apply Rmult_le_pos; lra).
      assert (eta <= eta * g) by (rewrite <- (Rmult_1_r eta) at 1; apply Rmult_le_compat_l; lra).
      assert (0 <= u * (eta * g)) by (apply Rmult_le_pos; [lra|apply Rmult_le_pos; lra]).
      replace ((I + 1) * (M * ((1 + u) * g - 1) + eta * ((1 + u) * g))) with
        (u * ((I + 1) * M + I * (M * (g - 1) + eta * g)) + I * (M * (g - 1) + eta * g) + eta + (M * (g - 1) + u * (M * (g - 1)) + (eta * g - eta) + u * (eta * g))) by ring.
      lra.
Qed.

(** one average *)
Lemma avg64_err l M : l <> [] -> (forall x, In x l -> Rabs x <= M) ->
  Rabs (rnd64 (sum64 l / INR (length l)) - rtotal l / INR (length l)) <= (1 + u) ^ S (length l) * (M + 2 * eta) - M.
Proof.
  intros NE HM. destruct l as [|x0 l0] eqn:EL; [congruence|]. rewrite <- EL in *. assert (0 <= M) as MP.
  { eapply Rle_trans; [apply (Rabs_pos x0)|]. apply HM. rewrite EL. left. reflexivity. }
  destruct (sum64_err_from M l MP HM 0 0 0) as [A B].
  { rewrite Rabs_R0. cbn. lra. }
  { rewrite Rminus_0_r, Rabs_R0. cbn. lra. }
  cbn [Nat.add] in A, B. rewrite Rplus_0_l in A, B. fold (sum64 l) in A.
  set (n := length l) in *. assert (0 < INR n) as NP by (apply (lt_INR 0); unfold n; rewrite EL; cbn; lia).
  set (g := (1 + u) ^ n) in *. pose proof (g_ge1 n) as G1. fold g in G1. cbn [pow]. fold g.
  assert (Rabs (sum64 l / INR n - rtotal l / INR n) <= M * (g - 1) + eta * g) as C.
  { replace (sum64 l / INR n - rtotal l / INR n) with ((sum64 l - rtotal l) / INR n) by (field; lra). unfold Rdiv. rewrite Rabs_mult, (Rabs_pos_eq (/ INR n)) by (left; apply Rinv_0_lt_compat, NP).
    apply (Rmult_le_reg_r (INR n)); [exact NP|]. rewrite Rmult_assoc, Rinv_l, Rmult_1_r by lra. rewrite (Rmult_comm _ (INR n)). exact A. }
  assert (Rabs (rtotal l / INR n) <= M) as D.
  { unfold Rdiv. rewrite Rabs_mult, (Rabs_pos_eq (/ INR n)) by (left; apply Rinv_0_lt_compat, NP).
    apply (Rmult_le_reg_r (INR n)); [exact NP|]. rewrite Rmult_assoc, Rinv_l, Rmult_1_r by lra. rewrite (Rmult_comm M). exact B. }
  pose proof (err (sum64 l / INR n)) as E. pose proof u_pos as UP. pose proof eta_bound as [EP _].
  set (a := rtotal l / INR n) in *. set (b := sum64 l / INR n) in *.
  assert (Rabs b <= M + (M * (g - 1) + eta * g)) as F. { replace b with ((b - a) + a) by ring. eapply Rle_trans; [apply Rabs_triang|]. lra. }
  replace (rnd64 b - a) with ((rnd64 b - b) + (b - a)) by ring. eapply Rle_trans; [apply Rabs_triang|].
  assert (u * Rabs b <= u * (M + (M * (g - 1) + eta * g))) by (apply Rmult_le_compat_l; lra).
  assert (eta <= eta * g) by (rewrite <- (Rmult_1_r eta) at 1; apply Rmult_le_compat_l; lra).
  assert (0 <= u * (eta * g)) by (apply Rmult_le_pos; [lra|apply Rmult_le_pos; lra]).
  replace ((1 + u) * g * (M + 2 * eta) - M) with (u * (M + (M * (g - 1) + eta * g)) + (M * (g - 1) + eta * g) + (eta * g) + u * (eta * g)) by ring.
  lra.
Qed.

Lemma rtotal_perm l l' : Permutation l l' -> rtotal l = rtotal l'.
Proof. induction 1; unfold rtotal in *; cbn [fold_right] in *; lra. Qed.
Lemma rtotal_gap e (f g : nat -> R) l : (forall u, In u l -> Rabs (f u - g u) <= e) -> Rabs (rtotal (map f l) - rtotal (map g l)) <= INR (length l) * e.
Proof.
  induction l as [|x l IH]; intros H; unfold rtotal in *; cbn [map fold_right].
  - rewrite Rminus_0_r, Rabs_R0. cbn. lra.
  - cbn [length]. rewrite S_INR. specialize (IH (fun u I => H u (or_intror I))). pose proof (H x (or_introl eq_refl)).
    match goal with |- Rabs (?a + ?b - (?c + ?d)) <= _ => replace (a + b - (c + d)) with ((a - c) + (b - d)) by ring end.
    eapply Rle_trans; [apply Rabs_triang|]. lra.
Qed.

Definition bounded (M : R) (p : list (list R)) : Prop := forall v j, (v < length p)%nat -> (j < 2)%nat -> Rabs (coord p v j) <= M.

Lemma sweep64_length arr t fx p : length (lap_sweep64 arr t fx p) = length p.
Proof. unfold lap_sweep64. rewrite map_length, seq_length. reflexivity. Qed.
Lemma sweep64_nth arr t fx p v : (v < length p)%nat -> nth v (lap_sweep64 arr t fx p) [] =
  if existsb (Nat.eqb v) fx then nth v p []
    else map (fun j => rnd64 (sum64 (map (fun u => nth j (nth u p []) 0) (arr (nbrs t v))) / INR (length (nbrs t v)))) [0; 1]%nat.
Proof.
  intros L. unfold lap_sweep64. rewrite (nth_map' (A:=nat) (B:=list R) _ _ _ [] O) by (rewrite seq_length; exact L). rewrite seq_nth by exact L. reflexivity.
Qed.
Lemma sweep64_fixed arr t fx p v : (v < length p)%nat -> In v fx -> nth v (lap_sweep64 arr t fx p) [] = nth v p [].
Proof. intros L I. rewrite sweep64_nth by exact L. rewrite (proj2 (mem_fixed v fx) I). reflexivity. Qed.

Lemma nbrs_lt n t v w : triangles t -> valid n t -> In w (nbrs t v) -> (w < n)%nat.
Proof.
  intros HT HV I. unfold nbrs in I. apply in_map_iff in I. destruct I as [[a b] [E I]]. cbn in E. subst b. apply filter_In in I. destruct I as [I _].
  unfold adj_entries in I. apply in_flat_map in I. destruct I as [r [Hr I]]. destruct (HT r Hr) as [L3 _]. destruct (row3 r L3) as [x [y [z ->]]].
  apply (HV _ w Hr). cbn [map nth fst snd] in I. repeat (destruct I as [I|I]; [inversion I; cbn; tauto|]). destruct I.
Qed.

Section S.
Variable t : list (list nat).
Variable fx : list nat.
Variable arr : list nat -> list nat.
Variable N d : nat.
Hypothesis HT : triangles t.
Hypothesis HV : valid N t.
Hypothesis HU : forall v, (v < N)%nat -> exists r, In r t /\ In v r.
Hypothesis HA : forall l, Permutation (arr l) l.
Hypothesis HD : forall v, (entities_on [v] t <= d)%nat.
Let G := (1 + u) ^ S (2 * d).

Lemma G1 : 1 <= G. Proof. apply g_ge1. Qed.
Lemma nbrs_le v : (length (nbrs t v) <= 2 * d)%nat.
Proof.
  apply INR_le. rewrite (nbrs_count N) by assumption. rewrite (links_total N) by assumption. rewrite mult_INR. cbn [INR]. apply Rmult_le_compat_l; [lra|]. apply le_INR, HD.
Qed.

Lemma sweep_near p c e M : length p = N -> length c = N -> 0 <= e -> 0 <= M -> bounded M p -> apart_at_most e c p ->
  (forall v, (v < N)%nat -> In v fx -> nth v c [] = nth v p []) ->
  apart_at_most (G * (M + e + 2 * eta) - M) (lap_sweep64 arr t fx c) (lap_sweep t fx p).
Proof.
  intros LP LC EP MP BM AP AG v j Lv Lj. rewrite sweep64_length, LC in Lv. unfold coord. rewrite sweep64_nth by lia. rewrite sweep_nth by lia.
  pose proof G1 as G1. pose proof eta_bound as [ETP _]. assert (M + e <= G * (M + e + 2 * eta)) as BASE.
  { eapply Rle_trans; [|apply Rmult_le_compat_r; [lra|exact G1]]. lra. }
  destruct (existsb (Nat.eqb v) fx) eqn:E.
  - apply mem_fixed in E. rewrite (AG v Lv E). rewrite Rminus_diag_eq, Rabs_R0 by reflexivity. lra.
  - set (l := arr (nbrs t v)). assert (length l = length (nbrs t v)) as LL by apply Permutation_length, HA.
    assert (nbrs t v <> []) as NE. { intros Z. apply (proj1 (nbrs_used t v HT) (HU v Lv)). rewrite Z. reflexivity. }
    assert (length (nbrs t v) <> 0%nat) as N0 by (destruct (nbrs t v); [congruence|discriminate]).
    assert (0 < INR (length (nbrs t v))) as NP by (apply (lt_INR 0); lia).
    replace (nth j (map (fun j0 => rnd64 (sum64 (map (fun u0 => nth j0 (nth u0 c []) 0) l) / INR (length (nbrs t v)))) [0%nat; 1%nat]) 0)
      with (rnd64 (sum64 (map (fun u0 => coord c u0 j) l) / INR (length (nbrs t v)))) by (destruct j as [|[|]]; [reflexivity..|lia]).
    replace (nth j (map (fun j0 => rtotal (map (fun u0 => nth j0 (nth u0 p []) 0) (nbrs t v)) / INR (length (nbrs t v))) [0%nat; 1%nat]) 0)
      with (rtotal (map (fun u0 => coord p u0 j) (nbrs t v)) / INR (length (nbrs t v))) by (destruct j as [|[|]]; [reflexivity..|lia]).
    assert (Rabs (rnd64 (sum64 (map (fun u0 => coord c u0 j) l) / INR (length (nbrs t v))) - rtotal (map (fun u0 => coord c u0 j) l) / INR (length (nbrs t v)))
       <= (1 + u) ^ S (length (nbrs t v)) * ((M + e) + 2 * eta) - (M + e)) as A.
    { pose proof (avg64_err (map (fun u0 => coord c u0 j) l) (M + e)) as AV. rewrite map_length, LL in AV. apply AV.
      - destruct l; [cbn in LL; lia|discriminate].
      - intros x Hx. apply in_map_iff in Hx. destruct Hx as [w [<- Hw]]. assert (w < N)%nat as Lw by (apply (nbrs_lt N t v w HT HV), (Permutation_in _ (HA _)), Hw).
        replace (coord c w j) with ((coord c w j - coord p w j) + coord p w j) by ring. eapply Rle_trans; [apply Rabs_triang|].
        pose proof (AP w j ltac:(lia) Lj). pose proof (BM w j ltac:(lia) Lj). lra. }
    assert ((1 + u) ^ S (length (nbrs t v)) <= G) as GL by (apply Rle_pow; [pose proof u_pos; lra|pose proof (nbrs_le v); lia]).
    assert (Rabs (rtotal (map (fun u0 => coord c u0 j) l) / INR (length (nbrs t v)) - rtotal (map (fun u0 => coord p u0 j) (nbrs t v)) / INR (length (nbrs t v))) <= e) as B.
    { rewrite (rtotal_perm (map (fun u0 => coord c u0 j) l) (map (fun u0 => coord c u0 j) (nbrs t v))) by (apply Permutation_map, HA).
      match goal with |- Rabs (?a / ?n - ?b / ?n) <= _ => replace (a / n - b / n) with ((a - b) / n) by (field; lra) end.
      unfold Rdiv. rewrite Rabs_mult, (Rabs_pos_eq (/ _)) by (left; apply Rinv_0_lt_compat, NP).
      apply (Rmult_le_reg_r (INR (length (nbrs t v)))); [exact NP|]. rewrite Rmult_assoc, Rinv_l, Rmult_1_r by lra. rewrite (Rmult_comm e).
      apply rtotal_gap. intros w Hw. apply AP; [|exact Lj]. rewrite LC. apply (nbrs_lt N t v w HT HV Hw). }
    match type of A with Rabs (?x - ?y) <= _ => match type of B with Rabs (_ - ?z) <= _ => replace (x - z) with ((x - y) + (y - z)) by ring end end.
    eapply Rle_trans; [apply Rabs_triang|].
    assert ((1 + u) ^ S (length (nbrs t v)) * (M + e + 2 * eta) <= G * (M + e + 2 * eta)) by (apply Rmult_le_compat_r; lra). lra.
Qed.

Lemma sweep_bounded p M : length p = N -> bounded M p -> bounded M (lap_sweep t fx p).
Proof.
  intros LP BM v j Lv Lj. rewrite sweep_length in Lv. unfold coord. rewrite sweep_nth by exact Lv. destruct (existsb _ fx); [apply BM; assumption|].
  assert (length (nbrs t v) <> 0%nat) as N0 by (apply (nbrs_used t v HT), HU; lia).
  assert (0 < INR (length (nbrs t v))) as NP by (apply (lt_INR 0); lia).
  replace (nth j (map (fun j0 => rtotal (map (fun u0 => nth j0 (nth u0 p []) 0) (nbrs t v)) / INR (length (nbrs t v))) [0%nat; 1%nat]) 0)
    with (rtotal (map (fun u0 => coord p u0 j) (nbrs t v)) / INR (length (nbrs t v))) by (destruct j as [|[|]]; [reflexivity..|lia]).
  unfold Rdiv. rewrite Rabs_mult, (Rabs_pos_eq (/ _)) by (left; apply Rinv_0_lt_compat, NP).
  apply (Rmult_le_reg_r (INR (length (nbrs t v)))); [exact NP|]. rewrite Rmult_assoc, Rinv_l, Rmult_1_r by lra. rewrite (Rmult_comm M).
  pose proof (rtotal_gap M (fun u0 => coord p u0 j) (fun _ => 0) (nbrs t v)) as R0.
  replace (rtotal (map (fun _ : nat => 0) (nbrs t v))) with 0 in R0.
  - rewrite Rminus_0_r in R0. apply R0. intros w Hw. rewrite Rminus_0_r. apply BM; [|exact Lj]. rewrite LP. apply (nbrs_lt N t v w HT HV Hw).
  - clear. induction (nbrs t v) as [|a l IH]; [reflexivity|]. unfold rtotal in *. cbn [map fold_right]. lra.
Qed.

Lemma loop64_near F es tol : (forall v, In v fx <-> F v) -> forall k L p c e M, length p = N -> length c = N -> 0 <= e -> 0 <= M -> bounded M p -> apart_at_most e c p ->
  (forall v, (v < N)%nat -> In v fx -> nth v c [] = nth v p []) -> (forall x, In x p -> length x = 2%nat) ->
  exists k' q, (k' <= k)%nat /\ ((1 <= k)%nat -> (1 <= k')%nat) /\ steps t F k' p q /\
    length (lap_loop64 arr k t fx es tol L c) = N /\
    apart_at_most (G ^ k' * (M + e + 2 * INR k' * eta) - M) (lap_loop64 arr k t fx es tol L c) q /\
    (forall v, (v < N)%nat -> In v fx -> nth v (lap_loop64 arr k t fx es tol L c) [] = nth v c []).
Proof.
  intros HF. induction k as [|k IH]; intros L p c e M LP LC EP MP BM AP AG HP.
  - exists 0%nat, p. split; [lia|]. split; [lia|]. split; [apply steps_O|]. cbn [lap_loop64]. split; [exact LC|]. split; [|reflexivity].
    intros v j Lv Lj. cbn [pow INR]. pose proof (AP v j Lv Lj). lra.
  - cbn [lap_loop64]. pose proof (sweep_step t fx p F HT ltac:(rewrite LP; exact HV) HP ltac:(rewrite LP; exact HU) HF) as ST.
    pose proof (sweep_near p c e M LP LC EP MP BM AP AG) as NE. pose proof G1 as G1. pose proof eta_bound as [ETP _].
    assert (0 <= G * (M + e + 2 * eta) - M) as E1. { pose proof (Rmult_le_compat_r (M + e + 2 * eta) 1 G ltac:(lra) G1). lra. }
    assert (forall v, (v < N)%nat -> In v fx -> nth v (lap_sweep64 arr t fx c) [] = nth v (lap_sweep t fx p) []) as AG'.
    { intros v Lv Iv. rewrite sweep64_fixed by (assumption || lia). rewrite sweep_nth by lia. rewrite (proj2 (mem_fixed v fx) Iv). apply AG; assumption. }
    destruct (Rltb _ tol).
    + exists 1%nat, (lap_sweep t fx p). split; [lia|]. split; [lia|]. split; [eapply steps_S; [exact ST|apply steps_O]|]. split; [rewrite sweep64_length; exact LC|]. split.
      * cbn [pow INR]. replace (G * 1 * (M + e + 2 * 1 * eta) - M) with (G * (M + e + 2 * eta) - M) by ring. exact NE.
      * intros v Lv Iv. apply sweep64_fixed; [lia|exact Iv].
    + destruct (IH (edge_lens64 es (lap_sweep64 arr t fx c)) (lap_sweep t fx p) (lap_sweep64 arr t fx c) (G * (M + e + 2 * eta) - M) M) as [k' [q [K1 [K2 [K3 [K4 [K5 K6]]]]]]].
      * rewrite sweep_length. exact LP.
      * rewrite sweep64_length. exact LC.
      * exact E1.
      * exact MP.
      * apply sweep_bounded; assumption.
      * exact NE.
      * exact AG'.
      * apply sweep_rows2, HP.
      * exists (S k'), q. split; [lia|]. split; [lia|]. split; [eapply steps_S; [exact ST|exact K3]|]. split; [exact K4|]. split.
        -- intros v j Lv Lj. eapply Rle_trans; [apply K5; assumption|]. cbn [pow]. rewrite S_INR.
           replace (M + (G * (M + e + 2 * eta) - M) + 2 * INR k' * eta) with (G * (M + e + 2 * eta) + 2 * INR k' * eta) by ring.
           assert (2 * INR k' * eta <= G * (2 * INR k' * eta)) as X.
           { assert (0 <= 2 * INR k' * eta) as P0 by (apply Rmult_le_pos; [pose proof (pos_INR k'); lra|lra]). pose proof (Rmult_le_compat_r _ 1 G P0 G1). lra. }
           assert (0 <= G ^ k') as GK by (apply pow_le; lra).
           replace (G * G ^ k' * (M + e + 2 * (INR k' + 1) * eta)) with (G ^ k' * (G * (M + e + 2 * eta) + G * (2 * INR k' * eta))) by ring.
           pose proof (Rmult_le_compat_l (G ^ k') _ _ GK (Rplus_le_compat_l (G * (M + e + 2 * eta)) _ _ X)). lra.
        -- intros v Lv Iv. rewrite K6 by assumption. apply sweep64_fixed; [lia|exact Iv].
Qed.
End S.
