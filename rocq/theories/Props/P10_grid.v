(** C65-C67: initial points of the generator (exact arithmetic).  bbox lists the (lower, upper) limits of the axes. *)
From Coq Require Import List ZArith Reals Bool Arith Lia Lra.
From Flocq Require Import Core.
From Verif Require Import Model.Base Model.InitGrid Spec.Geom Spec.Ranks Proofs.ListAux Proofs.MeshAux Proofs.InitGridProofs Proofs.InitRanks Proofs.InitGap.
Import ListNotations.
Local Open Scope R_scope.

(** ---- C65 ---- *)
Theorem C65_spacing : forall h0 bbox p q, length bbox = 2%nat \/ length bbox = 3%nat -> 0 < h0 ->
  In p (create_staggered_grid h0 bbox) -> In q (create_staggered_grid h0 bbox) -> p <> q -> h0 <= edist p q.
Proof. exact grid_spacing. Qed.
Print Assumptions C65_spacing.
Theorem C65_no_point_twice : forall h0 bbox, length bbox = 2%nat \/ length bbox = 3%nat -> 0 < h0 -> NoDup (create_staggered_grid h0 bbox).
Proof. exact grid_nodup. Qed.
Print Assumptions C65_no_point_twice.
Theorem C65_covers_box : forall h0 bbox x, length bbox = 2%nat \/ length bbox = 3%nat -> 0 < h0 -> length x = length bbox ->
  (forall k, (k < length bbox)%nat -> fst (nth k bbox (0,0)) <= nth k x 0 <= snd (nth k bbox (0,0))) ->
  exists q, In q (create_staggered_grid h0 bbox) /\ length q = length bbox /\ forall k, (k < length bbox)%nat -> Rabs (nth k x 0 - nth k q 0) <= h0 / 2.
Proof. exact grid_cover. Qed.
Print Assumptions C65_covers_box.
Theorem C65_extent : forall h0 bbox q, length bbox = 2%nat \/ length bbox = 3%nat -> 0 < h0 -> In q (create_staggered_grid h0 bbox) ->
  length q = length bbox /\ forall k, (k < length bbox)%nat -> fst (nth k bbox (0,0)) <= nth k q 0 < snd (nth k bbox (0,0)) + 3 / 2 * h0.
Proof.
  intros h0 bbox q D Hh I. split; [apply (in_grid h0 bbox q D) in I; destruct I as [js [_ [L _]]]; exact L|]. intros k Hk. apply (grid_bounds h0 bbox q k D Hh I Hk).
Qed.
Print Assumptions C65_extent.
Theorem C65_starts_at_corner : forall h0 bbox, length bbox = 2%nat \/ length bbox = 3%nat -> 0 < h0 -> Forall (fun b => fst b <= snd b) bbox ->
  In (map fst bbox) (create_staggered_grid h0 bbox).
Proof. exact grid_corner. Qed.
Print Assumptions C65_starts_at_corner.
(** h0 = 1 on the box [0,2]x[0,1]: three rows, the middle one shifted *)
Example C65_case : create_staggered_grid 1 [(0,2);(0,1)] = [[0;0];[0;1];[1;1/2];[1;3/2];[2;0];[2;1]].
Proof.
  unfold create_staggered_grid, staggered2. cbn [fst snd]. unfold n_nodes. replace ((2 + 1 - 0) / 1) with (IZR 3) by lra. replace ((1 + 1 - 0) / 1) with (IZR 2) by lra. rewrite !Zceil_IZR.
  change (Z.to_nat 2) with 2%nat. change (Z.to_nat 3) with 3%nat. cbn [seq flat_map map app]. unfold node, shift. cbn [Nat.odd Nat.even negb INR]. repeat (f_equal; try lra).
Qed.

(** ---- C66; the ranks split the box along one axis; a block is the share of one rank ---- *)
Theorem C66_ranks_disjoint : forall bbox r s size axis h0 q, length bbox = 2%nat \/ length bbox = 3%nat -> 0 < h0 -> (axis < length bbox)%nat ->
  Forall (fun b => fst b <= snd b) bbox -> (0 < size)%nat -> r <> s ->
  In q (make_init_points bbox r size axis h0) -> ~ In q (make_init_points bbox s size axis h0).
Proof.
  intros bbox r s size axis h0 q D Hh HA HF Hs N H1 H2. destruct (Nat.lt_gt_cases r s) as [K _]. destruct (K N) as [L|L].
  - exact (no_common_point bbox r s size axis h0 q D Hh HA HF Hs L H1 H2).
  - exact (no_common_point bbox s r size axis h0 q D Hh HA HF Hs L H2 H1).
Qed.
Print Assumptions C66_ranks_disjoint.
(** the points of one rank: the same guarantees as the serial grid *)
Theorem C66_spacing_within_a_rank : forall bbox r size axis h0 p q, length bbox = 2%nat \/ length bbox = 3%nat -> 0 < h0 ->
  In p (make_init_points bbox r size axis h0) -> In q (make_init_points bbox r size axis h0) -> p <> q -> h0 <= edist p q.
Proof.
  intros bbox r size axis h0 p q D Hh. unfold make_init_points. apply grid_spacing; [|exact Hh]. unfold dim23. rewrite map_length, seq_length. exact D.
Qed.
Print Assumptions C66_spacing_within_a_rank.
Theorem C66_one_rank_is_serial : forall bbox axis h0, length bbox = 2%nat \/ length bbox = 3%nat -> make_init_points bbox 0 1 axis h0 = create_staggered_grid h0 bbox.
Proof.
  intros bbox axis h0 D. unfold make_init_points. f_equal.
  apply (nth_ext _ _ (0,0) (0,0)); [rewrite map_length, seq_length; reflexivity|]. intros k Hk. rewrite map_length, seq_length in Hk.
  rewrite (nth_map' _ _ k (0,0) O) by (rewrite seq_length; exact Hk). rewrite seq_nth by exact Hk. cbn [Nat.add]. destruct (k =? axis)%nat; [|reflexivity].
  unfold local_span, limit. cbn [INR]. destruct (nth k bbox (0,0)) as [x y]. cbn [fst snd]. f_equal; field.
Qed.
Print Assumptions C66_one_rank_is_serial.
(** ranks 0 and 1 *)
Theorem C66_first_gap_is_h0 : forall bbox size axis h0, length bbox = 2%nat \/ length bbox = 3%nat -> 0 < h0 -> (axis < length bbox)%nat ->
  Forall (fun b => fst b <= snd b) bbox -> (0 < size)%nat ->
  h0 / 2 < (snd (nth axis bbox (0,0)) - fst (nth axis bbox (0,0))) / INR size ->
  row_gap axis (make_init_points bbox 0 size axis h0) (make_init_points bbox 1 size axis h0) h0.
Proof. exact gap_first. Qed.
Print Assumptions C66_first_gap_is_h0.
(** ranks r and r+1, r >= 1; W is the width of a block in units of h0 *)
Theorem C66_later_gaps : forall bbox r size axis h0, length bbox = 2%nat \/ length bbox = 3%nat -> 0 < h0 -> (axis < length bbox)%nat ->
  Forall (fun b => fst b <= snd b) bbox -> (0 < size)%nat ->
  let W := (snd (nth axis bbox (0,0)) - fst (nth axis bbox (0,0))) / INR size / h0 in / 2 < W -> (1 <= r)%nat ->
  exists g, row_gap axis (make_init_points bbox r size axis h0) (make_init_points bbox (S r) size axis h0) g /\ h0 / 2 < g <= 3 / 2 * h0 /\
    g = (W + IZR (Zceil W) + 1 - IZR (Zceil (2 * W))) * h0.
Proof. intros bbox r size axis h0 D Hh HA HF Hs W HW Hr. eexists. destruct (gap_later bbox r size axis h0 D Hh HA HF Hs HW Hr) as [A B]. split; [exact A|]. split; [exact B|reflexivity]. Qed.
Print Assumptions C66_later_gaps.
(** blocks not wider than h0/2: only rank 0 gets points *)
Theorem C66_narrow_blocks_empty : forall bbox r size axis h0, length bbox = 2%nat \/ length bbox = 3%nat -> 0 < h0 -> (axis < length bbox)%nat ->
  Forall (fun b => fst b <= snd b) bbox -> (0 < size)%nat ->
  (snd (nth axis bbox (0,0)) - fst (nth axis bbox (0,0))) / INR size <= h0 / 2 -> (1 <= r)%nat -> make_init_points bbox r size axis h0 = [].
Proof. exact narrow_empty. Qed.
Print Assumptions C66_narrow_blocks_empty.
(** from three ranks on, points of different ranks can be closer than h0: any fraction f of h0 between 1/2 and 1 occurs *)
Theorem C66_closer_than_h0 : forall f h0, 0 < h0 -> / 2 < f < 1 -> exists bbox p q,
  In p (make_init_points bbox 1 3 1 h0) /\ In q (make_init_points bbox 2 3 1 h0) /\ edist p q = f * h0.
Proof.
  intros f h0 Hh Hf. set (bbox := [(0, h0); (0, 3 * (1 + f) * h0)]). assert (0 < f * h0) as FP by (apply Rmult_lt_0_compat; lra).
  assert ((snd (nth 1 bbox (0,0)) - fst (nth 1 bbox (0,0))) / INR 3 / h0 = 1 + f) as EW by (cbn; field; lra).
  destruct (C66_later_gaps bbox 1 3 1 h0 (or_introl eq_refl) Hh ltac:(cbn; lia)) as [g [[_ [p [q [Ip [Iq [SR E]]]]]] [_ EG]]].
  - unfold bbox. repeat (apply Forall_cons; [cbn; lra|]). apply Forall_nil.
  - lia.
  - rewrite EW. lra.
  - lia.
  - rewrite EW in EG. rewrite (Zceil_imp 2 (1 + f)) in EG by (rewrite minus_IZR; lra). rewrite (Zceil_imp 4 (2 * (1 + f))) in EG by (rewrite minus_IZR; lra).
    exists bbox, p, q. split; [exact Ip|]. split; [exact Iq|]. destruct SR as [SR|SR]; [discriminate|].
    assert (length p = 2%nat /\ length q = 2%nat) as [Lp Lq].
    { unfold make_init_points in Ip, Iq. apply in_grid in Ip; [|left; reflexivity]. apply in_grid in Iq; [|left; reflexivity]. destruct Ip as [? [_ [Lp _]]]. destruct Iq as [? [_ [Lq _]]]. cbn in Lp, Lq. tauto. }
    destruct p as [|p0 [|p1 [|? ?]]]; try discriminate. destruct q as [|q0 [|q1 [|? ?]]]; try discriminate. cbn [nth] in SR, E. subst q0.
    unfold edist. cbn [sqdist]. replace ((p0 - p0) ^ 2 + ((p1 - q1) ^ 2 + 0)) with ((f * h0) * (f * h0)); [apply sqrt_square; lra|].
    replace (p1 - q1) with (- g) by lra. rewrite EG. ring.
Qed.
Print Assumptions C66_closer_than_h0.
(** two ranks on [0,1] x [0,3], h0 = 1: rank 1 starts one h0 after the last row of rank 0 *)
Example C66_case : make_init_points [(0,1);(0,3)] 0 2 1 1 = [[0;0];[0;1];[0;2];[1;1/2];[1;3/2];[1;5/2]] /\ make_init_points [(0,1);(0,3)] 1 2 1 1 = [[0;3];[1;7/2]].
Proof.
  unfold make_init_points, local_span, limit. cbn [length seq map Nat.eqb nth fst snd INR]. unfold create_staggered_grid, staggered2. cbn [fst snd].
  assert (n_nodes (0 + 0 * ((3 - 0) / (1 + 1))) (0 + 1 * ((3 - 0) / (1 + 1)) + 1) 1 = 3%nat) as -> by (unfold n_nodes; rewrite (Zceil_imp 3) by (rewrite minus_IZR; lra); reflexivity).
  assert (n_nodes 0 (1 + 1) 1 = 2%nat) as -> by (unfold n_nodes; rewrite (Zceil_imp 2) by (rewrite minus_IZR; lra); reflexivity).
  unfold node, shift. cbn [seq flat_map map app Nat.odd Nat.even negb Nat.sub INR]. split; [repeat (f_equal; try lra)|].
  match goal with |- context [n_nodes ?a ?b 1] => assert (n_nodes a b 1 = 1%nat) as -> by (unfold n_nodes; rewrite (Zceil_imp 1) by (rewrite minus_IZR; lra); reflexivity) end.
  cbn. repeat (f_equal; try lra).
Qed.

(** ---- C67: along every axis, each initial point of a rank lies between two coordinates of the rank's sizing grid, so it is never extrapolated ---- *)
Theorem C67_local_sizing_covers : forall bbox r size axis h0 q k, length bbox = 2%nat \/ length bbox = 3%nat -> 0 < h0 -> Forall (fun b => fst b <= snd b) bbox ->
  (r < size)%nat -> In q (make_init_points bbox r size axis h0) -> (k < length bbox)%nat ->
  exists a b, In a (nth k (sizing_vectors bbox r size axis h0) []) /\ In b (nth k (sizing_vectors bbox r size axis h0) []) /\ a <= nth k q 0 <= b.
Proof. exact sizing_covers. Qed.
Print Assumptions C67_local_sizing_covers.
(** the last point of rank 1 of C66_case *)
Example C67_case : exists a b, In a (nth 1 (sizing_vectors [(0,1);(0,3)] 1 2 1 1) []) /\ In b (nth 1 (sizing_vectors [(0,1);(0,3)] 1 2 1 1) []) /\ a <= 7 / 2 <= b.
Proof.
  destruct (C67_local_sizing_covers [(0,1);(0,3)] 1 2 1 1 [1;7/2] 1 (or_introl eq_refl)) as [a [b H]]; try lra; try lia.
  - repeat (apply Forall_cons; [cbn; lra|]). apply Forall_nil.
  - rewrite (proj2 C66_case). right. left. reflexivity.
  - cbn. lia.
  - exists a, b. exact H.
Qed.
