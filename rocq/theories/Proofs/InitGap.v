From Coq Require Import List ZArith Reals Bool Arith Lia Lra.
From Flocq Require Import Core.
From Verif Require Import Model.Base Model.InitGrid Spec.Geom Spec.Ranks Proofs.ListAux Proofs.MeshAux Proofs.InitGridProofs Proofs.InitRanks.
Import ListNotations.
Local Open Scope R_scope.

(** the point with index js *)
Definition grid_point (h : R) (bbox : list (R * R)) (js : nat -> nat) : list R :=
  map (fun k => node (fst (nth k bbox (0,0))) h (js k) + match k with O => 0 | _ => shift h (js O) end) (seq 0 (length bbox)).
Lemma grid_point_nth h bbox js k : (k < length bbox)%nat ->
  nth k (grid_point h bbox js) 0 = node (fst (nth k bbox (0,0))) h (js k) + match k with O => 0 | _ => shift h (js O) end.
Proof. intros L. unfold grid_point. rewrite (nth_map' _ _ k 0 O) by (rewrite seq_length; exact L). rewrite seq_nth by exact L. reflexivity. Qed.
Lemma grid_point_in h bbox js : dim23 bbox -> (forall k, (k < length bbox)%nat -> let b := nth k bbox (0,0) in (js k < n_nodes (fst b) (snd b + h) h)%nat) ->
  In (grid_point h bbox js) (create_staggered_grid h bbox).
Proof.
  intros D H. apply (in_grid h bbox _ D). exists (map js (seq 0 (length bbox))). rewrite map_length, seq_length. split; [reflexivity|].
  unfold grid_point at 1. rewrite map_length, seq_length. split; [reflexivity|]. intros k Hk. cbv zeta.
  assert (forall k, (k < length bbox)%nat -> nth k (map js (seq 0 (length bbox))) O = js k) as E.
  { intros i Hi. rewrite (nth_map' _ _ i O O) by (rewrite seq_length; exact Hi). rewrite seq_nth by exact Hi. reflexivity. }
  rewrite (E k Hk), (E O ltac:(lia)). split; [apply H, Hk|]. apply grid_point_nth, Hk.
Qed.
Definition block_width (b : R * R) (size : nat) : R := (snd b - fst b) / INR size.
Definition gap_of (b : R * R) (size r : nat) (h : R) : R := fst (local_span b size (S r) h) - last_node b size h r.
Lemma row_gap_ranks bbox r size axis h : dim23 bbox -> 0 < h -> (axis < length bbox)%nat -> Forall (fun b => fst b <= snd b) bbox -> (0 < size)%nat ->
  let b := nth axis bbox (0,0) in
  (0 < n_nodes (fst (local_span b size r h)) (snd (local_span b size r h) + h) h)%nat ->
  (0 < n_nodes (fst (local_span b size (S r) h)) (snd (local_span b size (S r) h) + h) h)%nat ->
  row_gap axis (make_init_points bbox r size axis h) (make_init_points bbox (S r) size axis h) (gap_of b size r h).
Proof.
  intros D Hh HA HF Hs b N0 N1. unfold make_init_points. fold (rank_box bbox r size axis h) (rank_box bbox (S r) size axis h).
  assert (dim23 (rank_box bbox r size axis h) /\ dim23 (rank_box bbox (S r) size axis h)) as [D1 D2] by (unfold dim23; rewrite !rank_box_len; tauto).
  unfold gap_of, last_node. split.
  - intros p q H1 H2 A. apply (in_grid _ _ _ D1) in H1. apply (in_grid _ _ _ D2) in H2. destruct H1 as [is [_ [_ H1]]]. destruct H2 as [js [_ [_ H2]]].
    rewrite rank_box_len in H1, H2. pose proof (H1 axis HA) as A1. pose proof (H2 axis HA) as A2. cbv zeta in A1, A2. rewrite rank_box_nth in A1, A2 by exact HA.
    rewrite Nat.eqb_refl in A1, A2. fold b in A1, A2. destruct A1 as [L1 E1]. destruct A2 as [L2 E2]. rewrite E1, E2.
    assert (match axis with O => 0 | _ => shift h (nth 0 is O) end = match axis with O => 0 | _ => shift h (nth 0 js O) end) as ES.
    { destruct axis as [|axis]; [reflexivity|]. destruct A as [A|A]; [discriminate|].
      assert (0 < length bbox)%nat as P0 by lia. pose proof (H1 0%nat P0) as B1. pose proof (H2 0%nat P0) as B2. cbv zeta in B1, B2. rewrite rank_box_nth in B1, B2 by exact P0. cbn [Nat.eqb] in B1, B2.
      destruct B1 as [_ F1]. destruct B2 as [_ F2]. rewrite F1, F2 in A. f_equal. apply (node_inj (fst (nth 0 bbox (0,0))) h); [exact Hh|lra]. }
    rewrite ES. assert (node (fst (local_span b size r h)) h (nth axis is O) <= node (fst (local_span b size r h)) h (n_nodes (fst (local_span b size r h)) (snd (local_span b size r h) + h) h - 1)) as M1.
    { unfold node. apply Rplus_le_compat_l, Rmult_le_compat_r; [lra|]. apply le_INR. lia. }
    assert (fst (local_span b size (S r) h) <= node (fst (local_span b size (S r) h)) h (nth axis js O)) as M2.
    { unfold node. pose proof (Rmult_le_pos _ _ (pos_INR (nth axis js O)) (Rlt_le _ _ Hh)). lra. }
    lra.
  - set (n := n_nodes (fst (local_span b size r h)) (snd (local_span b size r h) + h) h).
    assert (forall k, (k < length bbox)%nat -> let b := nth k bbox (0,0) in (0 < n_nodes (fst b) (snd b + h) h)%nat) as NP.
    { intros k Hk. cbv zeta. rewrite Forall_forall in HF. specialize (HF _ (nth_In bbox (0,0) Hk)). pose proof (n_nodes_pos (fst (nth k bbox (0,0))) (snd (nth k bbox (0,0)) + h) h Hh ltac:(lra)). lia. }
    exists (grid_point h (rank_box bbox r size axis h) (fun k => if (k =? axis)%nat then (n - 1)%nat else O)), (grid_point h (rank_box bbox (S r) size axis h) (fun k => O)).
    split; [|split; [|split]].
    + apply grid_point_in; [exact D1|]. rewrite rank_box_len. intros k Hk. cbv zeta. rewrite rank_box_nth by exact Hk. destruct (k =? axis)%nat eqn:E; [|apply NP, Hk].
      apply Nat.eqb_eq in E. subst k. fold b. fold n. unfold n in *. lia.
    + apply grid_point_in; [exact D2|]. rewrite rank_box_len. intros k Hk. cbv zeta. rewrite rank_box_nth by exact Hk. destruct (k =? axis)%nat eqn:E; [|apply NP, Hk].
      apply Nat.eqb_eq in E. subst k. fold b. exact N1.
    + destruct axis as [|axis]; [left; reflexivity|]. right. rewrite !grid_point_nth by (rewrite rank_box_len; lia). rewrite !rank_box_nth by lia. cbn [Nat.eqb]. reflexivity.
    + rewrite !grid_point_nth by (rewrite rank_box_len; lia). rewrite !rank_box_nth by lia. rewrite !Nat.eqb_refl. fold b. fold n.
      assert (match axis with O => 0 | _ => shift h (if (0 =? axis)%nat then (n - 1)%nat else O) end = match axis with O => 0 | _ => shift h O end) as -> by (destruct axis; reflexivity).
      unfold node. cbn [INR]. ring.
Qed.
Lemma n_rank0 b size h : 0 < h -> fst b <= snd b -> (0 < size)%nat -> (0 < n_nodes (fst (local_span b size 0 h)) (snd (local_span b size 0 h) + h) h)%nat.
Proof. intros Hh Hb Hs. rewrite span0. cbn [fst snd]. rewrite (n_block b size h Hh Hb Hs). lia. Qed.
Lemma gap_first bbox size axis h : dim23 bbox -> 0 < h -> (axis < length bbox)%nat -> Forall (fun b => fst b <= snd b) bbox -> (0 < size)%nat ->
  h / 2 < block_width (nth axis bbox (0,0)) size ->
  row_gap axis (make_init_points bbox 0 size axis h) (make_init_points bbox 1 size axis h) h.
Proof.
  intros D Hh HA HF Hs HD. assert (fst (nth axis bbox (0,0)) <= snd (nth axis bbox (0,0))) as Hb by (rewrite Forall_forall in HF; apply HF, nth_In, HA).
  rewrite <- (gap0 (nth axis bbox (0,0)) size h Hh Hb Hs) at 3. apply row_gap_ranks; try assumption; [apply n_rank0; assumption|].
  destruct (n_rankS _ size h Hh Hb Hs O HD) as [-> N]. lia.
Qed.
Lemma gap_later bbox r size axis h : dim23 bbox -> 0 < h -> (axis < length bbox)%nat -> Forall (fun b => fst b <= snd b) bbox -> (0 < size)%nat ->
  let W := block_width (nth axis bbox (0,0)) size / h in / 2 < W -> (1 <= r)%nat ->
  let g := (W + IZR (Zceil W) + 1 - IZR (Zceil (2 * W))) * h in
  row_gap axis (make_init_points bbox r size axis h) (make_init_points bbox (S r) size axis h) g /\ h / 2 < g <= 3 / 2 * h.
Proof.
  intros D Hh HA HF Hs W HW Hr g. assert (fst (nth axis bbox (0,0)) <= snd (nth axis bbox (0,0))) as Hb by (rewrite Forall_forall in HF; apply HF, nth_In, HA).
  assert (h / 2 < block_width (nth axis bbox (0,0)) size) as HD.
  { apply (Rmult_lt_compat_r h) in HW; [|exact Hh]. unfold W in HW. replace (block_width (nth axis bbox (0,0)) size / h * h) with (block_width (nth axis bbox (0,0)) size) in HW by (field; lra). lra. }
  destruct r as [|r]; [lia|]. destruct (gapS (nth axis bbox (0,0)) size h Hh Hb Hs r HD) as [G E].
  assert (gap_of (nth axis bbox (0,0)) size (S r) h = g) as EG by exact E. rewrite <- EG. split; [|exact G].
  apply row_gap_ranks; try assumption; [destruct (n_rankS _ size h Hh Hb Hs r HD) as [-> N]; lia|destruct (n_rankS _ size h Hh Hb Hs (S r) HD) as [-> N]; lia].
Qed.
Lemma narrow_empty bbox r size axis h : dim23 bbox -> 0 < h -> (axis < length bbox)%nat -> Forall (fun b => fst b <= snd b) bbox -> (0 < size)%nat ->
  block_width (nth axis bbox (0,0)) size <= h / 2 -> (1 <= r)%nat -> make_init_points bbox r size axis h = [].
Proof.
  intros D Hh HA HF Hs HD Hr. destruct r as [|r]; [lia|]. assert (fst (nth axis bbox (0,0)) <= snd (nth axis bbox (0,0))) as Hb by (rewrite Forall_forall in HF; apply HF, nth_In, HA).
  destruct (make_init_points bbox (S r) size axis h) as [|q l] eqn:E; [reflexivity|]. exfalso.
  assert (In q (make_init_points bbox (S r) size axis h)) as I by (rewrite E; left; reflexivity). clear E.
  unfold make_init_points in I. fold (rank_box bbox (S r) size axis h) in I.
  assert (dim23 (rank_box bbox (S r) size axis h)) as D1 by (unfold dim23; rewrite rank_box_len; exact D).
  apply (in_grid _ _ _ D1) in I. destruct I as [js [_ [_ H]]]. rewrite rank_box_len in H. specialize (H axis HA). cbv zeta in H. rewrite rank_box_nth in H by exact HA. rewrite Nat.eqb_refl in H.
  destruct H as [L _]. revert L. set (b := nth axis bbox (0,0)) in *. rewrite (spanS b size h Hh Hb Hs). cbn [fst snd]. rewrite !limit_S. fold (block_width b size). set (Dw := block_width b size) in *.
  unfold n_nodes. replace ((limit b size r + Dw + Dw + h - (limit b size r + (IZR (Zceil (Dw / h)) + 1) * h)) / h) with (2 * (Dw / h) + IZR (- Zceil (Dw / h))) by (rewrite opp_IZR; field; lra).
  rewrite ceil_shift_Z. assert (0 <= Dw) as D0. { unfold Dw, block_width. apply Rmult_le_pos; [lra|]. left. apply Rinv_0_lt_compat, lt_0_INR, Hs. }
  assert (Dw / h <= / 2) as W2. { apply (Rmult_le_reg_r h); [exact Hh|]. replace (Dw / h * h) with Dw by (field; lra). lra. }
  assert (0 <= Dw / h) as W0. { apply Rmult_le_pos; [exact D0|]. left. apply Rinv_0_lt_compat, Hh. }
  pose proof (double_ceil (Dw / h)) as [C [_ _]].
  assert (Zceil (2 * (Dw / h)) <= Zceil (Dw / h))%Z as LE.
  { destruct (Rle_lt_or_eq_dec _ _ W0) as [P|P].
    - rewrite (Zceil_imp 1 (Dw / h)), (Zceil_imp 1 (2 * (Dw / h))); [lia|..]; rewrite minus_IZR; lra.
    - rewrite <- P, Rmult_0_r. lia. }
  lia.
Qed.
