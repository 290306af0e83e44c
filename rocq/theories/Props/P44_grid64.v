(** C108: the initial grid in binary64. *)
From Coq Require Import List ZArith Reals Bool Arith Lia Lra.
From Flocq Require Import Core.
From Verif Require Import Model.Base Model.FastHJ Model.InitGrid Model.InitGrid64 Spec.Geom Spec.Rounded
  Proofs.ListAux Proofs.MeshAux Proofs.GridIndex Proofs.Euclid Proofs.SnapProofs Proofs.InitGridProofs Proofs.InitGrid64Proofs Props.P10_grid.
Import ListNotations.
Local Open Scope R_scope.

(** The grid of doubles is, up to rounding, the exact grid of a box with the same lower limits whose upper limits exceed those of the
    given box by less than one spacing and fall short of them by rounding only. *)
Theorem C108_near_exact : forall h bbox, length bbox = 2%nat \/ length bbox = 3%nat -> bpow radix2 (-1000) <= h -> Forall (resolved h) bbox ->
  exists bbox', map fst bbox' = map fst bbox /\
    (forall k, (k < length bbox)%nat -> let b := nth k bbox (0, 0) in snd b - / 2 ^ 51 * magnitude h b <= snd (nth k bbox' (0, 0)) < snd b + h + / 2 ^ 51 * magnitude h b) /\
    Forall2 (close_to (fun k => / 2 ^ 50 * magnitude h (nth k bbox (0, 0)))) (create_staggered_grid64 h bbox) (create_staggered_grid h bbox').
Proof.
  intros h bbox D Hn R. exists (map (rounded_box h) bbox). split; [rewrite map_map; reflexivity|]. split; [|exact (grid_near h bbox D Hn R)].
  intros k K b. rewrite (nth_map' (rounded_box h) bbox k (0, 0) (0, 0)) by exact K. fold b. rewrite Forall_forall in R. assert (RB : resolved h b) by (apply R, nth_In, K).
  destruct b as [lo hi]. cbn [rounded_box fst snd]. destruct (n64_pos lo hi h Hn RB) as [[P1 P2] P3]. cbn [snd]. lra.
Qed.
Print Assumptions C108_near_exact.

Lemma near_bounds h bbox bbox' : length bbox = 2%nat \/ length bbox = 3%nat -> Forall2 (close_to (fun k => / 2 ^ 50 * magnitude h (nth k bbox (0, 0)))) (create_staggered_grid64 h bbox) (create_staggered_grid h bbox') -> map fst bbox' = map fst bbox -> length bbox' = length bbox.
Proof. intros _ _ E. rewrite <- (map_length fst bbox'), E. apply map_length. Qed.
(** Every point of the box has a grid point within half a spacing, up to rounding, in each coordinate. *)
Theorem C108_covers_box : forall h bbox x, length bbox = 2%nat \/ length bbox = 3%nat -> bpow radix2 (-1000) <= h -> Forall (resolved h) bbox -> length x = length bbox ->
  (forall k, (k < length bbox)%nat -> fst (nth k bbox (0,0)) <= nth k x 0 <= snd (nth k bbox (0,0))) ->
  exists q, In q (create_staggered_grid64 h bbox) /\ length q = length bbox /\
    forall k, (k < length bbox)%nat -> Rabs (nth k x 0 - nth k q 0) <= h / 2 + / 2 ^ 49 * magnitude h (nth k bbox (0, 0)).
Proof.
  intros h bbox x D Hn R LX BX. assert (H : 0 < h) by (pose proof (bpow_gt_0 radix2 (-1000)); lra).
  pose proof (grid_near h bbox D Hn R) as F. set (bbox' := map (rounded_box h) bbox) in *. assert (LB : length bbox' = length bbox) by apply map_length.
  assert (NB : forall k, (k < length bbox)%nat -> fst (nth k bbox' (0, 0)) = fst (nth k bbox (0, 0)) /\ fst (nth k bbox (0, 0)) <= snd (nth k bbox' (0, 0)) /\
     snd (nth k bbox (0, 0)) - / 2 ^ 51 * magnitude h (nth k bbox (0, 0)) <= snd (nth k bbox' (0, 0)) /\ 0 <= magnitude h (nth k bbox (0, 0))).
  { intros k K. unfold bbox'. rewrite (nth_map' (rounded_box h) bbox k (0, 0) (0, 0)) by exact K. rewrite Forall_forall in R. assert (RB : resolved h (nth k bbox (0, 0))) by (apply R, nth_In, K).
    destruct (nth k bbox (0, 0)) as [lo hi]. cbn [rounded_box fst snd]. destruct (n64_pos lo hi h Hn RB) as [[P1 P2] P3]. destruct (M_ge lo hi h Hn) as (G1 & _). repeat split; lra. }
  set (x' := map (fun k => Rmin (nth k x 0) (snd (nth k bbox' (0, 0)))) (seq 0 (length bbox))).
  assert (NX : forall k, (k < length bbox)%nat -> nth k x' 0 = Rmin (nth k x 0) (snd (nth k bbox' (0, 0)))).
  { intros k K. unfold x'. rewrite (nth_map' _ _ _ 0 0%nat) by (rewrite seq_length; exact K). rewrite seq_nth by exact K. reflexivity. }
  destruct (C65_covers_box h bbox' x') as (q' & IQ & LQ & CQ).
  { rewrite LB. exact D. } { exact H. } { unfold x'. rewrite map_length, seq_length. symmetry. exact LB. }
  { intros k K. rewrite LB in K. rewrite NX by exact K. destruct (NB k K) as (N1 & N2 & N3 & _). destruct (BX k K) as [B1 B2]. rewrite N1. unfold Rmin. destruct (Rle_dec _ _); lra. }
  assert (exists q, In q (create_staggered_grid64 h bbox) /\ close_to (grid_tol h bbox) q q') as (q & IN & CL & CT).
  { clear - F IQ. induction F as [|a b l m P F IH]; [destruct IQ|]. destruct IQ as [<- | IQ]; [exists a; split; [left; reflexivity|exact P]|]. destruct (IH IQ) as (q & IN & C). exists q. split; [right; exact IN|exact C]. }
  exists q. split; [exact IN|]. split; [rewrite CL, LQ; exact LB|]. intros k K. rewrite LB in *. specialize (CQ k K). rewrite NX in CQ by exact K.
  assert (KQ : (k < length q)%nat) by lia. specialize (CT k KQ). unfold grid_tol in CT. destruct (NB k K) as (N1 & N2 & N3 & N4). destruct (BX k K) as [B1 B2].
  apply Rabs_le_inv in CQ. apply Rabs_le_inv in CT. apply Rabs_le. set (m := magnitude h (nth k bbox (0, 0))) in *. clearbody m. unfold Rmin in CQ. destruct (Rle_dec _ _); lra.
Qed.
Print Assumptions C108_covers_box.
(** The grid starts at the lower limits exactly and ends less than 3/2 spacings beyond the upper ones, up to rounding. *)
Theorem C108_extent : forall h bbox q, length bbox = 2%nat \/ length bbox = 3%nat -> bpow radix2 (-1000) <= h -> Forall (resolved h) bbox ->
  Forall (fun b => fmt64 (fst b)) bbox -> In q (create_staggered_grid64 h bbox) ->
  length q = length bbox /\ forall k, (k < length bbox)%nat -> let b := nth k bbox (0, 0) in fst b <= nth k q 0 < snd b + 3 / 2 * h + / 2 ^ 49 * magnitude h b.
Proof.
  intros h bbox q D Hn R FM IN. assert (H : 0 < h) by (pose proof (bpow_gt_0 radix2 (-1000)); lra).
  assert (LOW : forall lo i k, fmt64 lo -> lo <= shifted64 lo h i k /\ lo <= node64 lo h k).
  { intros lo i k FL. assert (N0 : lo <= node64 lo h k).
    { unfold node64. apply Rle_trans with (rnd64 lo); [apply Req_le; symmetry; apply round_generic; [typeclasses eauto|exact FL]|]. apply rnd64_le.
      pose proof (rnd64_pos (INR k * h)) as P. pose proof (Rmult_le_pos _ _ (pos_INR k) (Rlt_le _ _ H)). lra. }
    split; [|exact N0]. unfold shifted64. destruct (Nat.odd i); [|exact N0]. apply Rle_trans with (rnd64 lo); [apply Req_le; symmetry; apply round_generic; [typeclasses eauto|exact FL]|]. apply rnd64_le.
    pose proof (rnd64_pos (h / 2)). lra. }
  pose proof (grid_near h bbox D Hn R) as F. set (bbox' := map (rounded_box h) bbox) in *. assert (LB : length bbox' = length bbox) by apply map_length.
  assert (exists q', In q' (create_staggered_grid h bbox') /\ close_to (grid_tol h bbox) q q') as (q' & IQ & CL & CT).
  { clear - F IN. induction F as [|a b l m P F IH]; [destruct IN|]. destruct IN as [<- | IN]; [exists b; split; [left; reflexivity|exact P]|]. destruct (IH IN) as (q' & IQ & C). exists q'. split; [right; exact IQ|exact C]. }
  destruct (C65_extent h bbox' q') as [LQ EQ]; [rewrite LB; exact D|exact H|exact IQ|].
  split; [rewrite CL, LQ; exact LB|]. intros k K b. split.
  - assert (FB : fmt64 (fst b)) by (rewrite Forall_forall in FM; apply FM, nth_In, K). unfold b in *. clear b.
    destruct D as [D|D].
    + destruct bbox as [|b0 [|b1 [|]]]; try discriminate D. cbn [create_staggered_grid64] in IN. unfold staggered2_64 in IN. apply in_flat_map in IN. destruct IN as (i & _ & IN). apply in_map_iff in IN. destruct IN as (j & <- & _).
      destruct k as [|[|k]]; [| |cbn in K; lia]; cbn [nth] in *; [apply (LOW _ 0%nat), FB|apply LOW, FB].
    + destruct bbox as [|b0 [|b1 [|b2 [|]]]]; try discriminate D. cbn [create_staggered_grid64] in IN. unfold staggered3_64 in IN. apply in_flat_map in IN. destruct IN as (i & _ & IN). apply in_flat_map in IN. destruct IN as (j & _ & IN). apply in_map_iff in IN. destruct IN as (l & <- & _).
      destruct k as [|[|[|k]]]; [| | |cbn in K; lia]; cbn [nth] in *; [apply (LOW _ 0%nat), FB|apply LOW, FB|apply LOW, FB].
  - assert (KQ : (k < length q)%nat) by lia. specialize (CT k KQ). unfold grid_tol in CT. fold b in CT. rewrite Forall_forall in R. assert (RB : resolved h b) by (apply R, nth_In, K).
    (* the last row of the exact grid lies at the upper limit of the rounded box *)
    assert (U : nth k q' 0 < snd b + 3 / 2 * h + / 2 ^ 51 * magnitude h b).
    { assert (UB : nth k q' 0 <= snd (nth k bbox' (0, 0)) + h / 2).
      { assert (SH : forall i, shift h i <= h / 2) by (intros i; unfold shift; destruct (Nat.odd i); lra).
        assert (ND : forall b' i, In b' bbox -> (i < n_nodes (fst (rounded_box h b')) (snd (rounded_box h b') + h) h)%nat -> node (fst (rounded_box h b')) h i <= snd (rounded_box h b')).
        { intros [lo hi] i IB I. cbn [rounded_box fst snd] in *. rewrite n_of_count in I; [|exact H|exact (n64_one lo hi h Hn (R _ IB))]. unfold node. apply Rplus_le_compat_l, Rmult_le_compat_r; [lra|]. apply le_INR. lia. }
        clear - IQ K D SH ND H LB. unfold bbox' in *. clear bbox'. destruct D as [D|D].
        - destruct bbox as [|b0 [|b1 [|]]]; try discriminate D. cbn [map create_staggered_grid] in IQ. apply in_staggered2 in IQ. destruct IQ as (i & j & I & J & ->).
          destruct k as [|[|k]]; [| |cbn in K; lia]; cbn [nth map].
          + pose proof (ND b0 i ltac:(cbn; tauto) I). lra.
          + pose proof (ND b1 j ltac:(cbn; tauto) J). pose proof (SH i). lra.
        - destruct bbox as [|b0 [|b1 [|b2 [|]]]]; try discriminate D. cbn [map create_staggered_grid] in IQ. apply in_staggered3 in IQ. destruct IQ as (i & j & l & I & J & L & ->).
          destruct k as [|[|[|k]]]; [| | |cbn in K; lia]; cbn [nth map].
          + pose proof (ND b0 i ltac:(cbn; tauto) I). lra.
          + pose proof (ND b1 j ltac:(cbn; tauto) J). pose proof (SH i). lra.
          + pose proof (ND b2 l ltac:(cbn; tauto) L). pose proof (SH i). lra. }
      unfold bbox' in UB. rewrite (nth_map' (rounded_box h) bbox k (0, 0) (0, 0)) in UB by exact K. fold b in UB. destruct b as [lo hi]. cbn [rounded_box fst snd] in *. destruct (n64_pos lo hi h Hn RB) as [[P1 P2] P3]. lra. }
    destruct b as [lo hi]. cbn [fst snd] in *. destruct (M_ge lo hi h Hn) as (G1 & _). apply Rabs_le_inv in CT. set (m := magnitude h (lo, hi)) in *. clearbody m. lra.
Qed.
Print Assumptions C108_extent.
Lemma sum_bound q q' tol : close_to tol q q' -> edist q q' <= fold_right Rplus 0 (map tol (seq 0 (length q))).
Proof.
  revert q' tol. induction q as [|x q IH]; intros q' tol [L C]; destruct q' as [|y q']; try discriminate L.
  - unfold edist. cbn. rewrite sqrt_0. lra.
  - cbn [length seq map fold_right]. assert (C' : close_to (fun k => tol (S k)) q q').
    { split; [injection L as L; exact L|]. intros k K. exact (C (S k) ltac:(cbn; lia)). }
    specialize (IH q' _ C'). rewrite <- seq_shift, map_map. pose proof (C 0%nat ltac:(cbn; lia)) as C0. cbn [nth] in C0.
    assert (edist (x :: q) (y :: q') <= Rabs (x - y) + edist q q'); [|lra].
    unfold edist. cbn [sqdist]. pose proof (sqdist_nonneg q q') as N. pose proof (sqrt_pos (sqdist q q')) as SP. pose proof (sqrt_sqrt _ N) as SS. pose proof (Rabs_pos (x - y)) as A.
    rewrite <- (sqrt_Rsqr (Rabs (x - y) + sqrt (sqdist q q'))) by lra. apply sqrt_le_1_alt. unfold Rsqr. assert (E : (x - y) ^ 2 = Rabs (x - y) * Rabs (x - y)) by (rewrite <- Rabs_mult, Rabs_right; [ring|]; apply Rle_ge, Rle_0_sqr).
    rewrite E. nra.
Qed.
Lemma Forall2_at {A B} (P : A -> B -> Prop) l m i a b : Forall2 P l m -> (i < length l)%nat -> P (nth i l a) (nth i m b) /\ length l = length m.
Proof.
  intros F. revert i. induction F as [|x y l m H F IH]; intros i I; [cbn in I; lia|]. cbn [length] in *. split.
  - destruct i as [|i]; [exact H|]. cbn [nth]. apply IH. lia.
  - f_equal. destruct l as [|x2 l]; [inversion F; reflexivity|]. apply (IH 0%nat). cbn. lia.
Qed.
(** Any two grid points are a spacing apart, up to rounding. *)
Theorem C108_spacing : forall h bbox i j, length bbox = 2%nat \/ length bbox = 3%nat -> bpow radix2 (-1000) <= h -> Forall (resolved h) bbox ->
  (i < length (create_staggered_grid64 h bbox))%nat -> (j < length (create_staggered_grid64 h bbox))%nat -> i <> j ->
  h - / 2 ^ 49 * fold_right Rplus 0 (map (magnitude h) bbox) <= edist (nth i (create_staggered_grid64 h bbox) []) (nth j (create_staggered_grid64 h bbox) []).
Proof.
  intros h bbox i j D Hn R I J N. assert (H : 0 < h) by (pose proof (bpow_gt_0 radix2 (-1000)); lra).
  pose proof (grid_near h bbox D Hn R) as F. set (bbox' := map (rounded_box h) bbox) in *. assert (LB : length bbox' = length bbox) by apply map_length. assert (D' : length bbox' = 2%nat \/ length bbox' = 3%nat) by (rewrite LB; exact D).
  set (G := create_staggered_grid64 h bbox) in *. set (G' := create_staggered_grid h bbox') in *.
  destruct (Forall2_at _ _ _ i [] [] F I) as [CI LG]. destruct (Forall2_at _ _ _ j [] [] F J) as [CJ _].
  assert (II : In (nth i G' []) G') by (apply nth_In; lia). assert (IJ : In (nth j G' []) G') by (apply nth_In; lia).
  assert (NE : nth i G' [] <> nth j G' []) by (intros Q; apply N; apply (proj1 (NoDup_nth G' []) (C65_no_point_twice h bbox' D' H)); [lia|lia|exact Q]).
  pose proof (C65_spacing h bbox' _ _ D' H II IJ NE) as SP. destruct (C65_extent h bbox' _ D' H II) as [LI _]. destruct (C65_extent h bbox' _ D' H IJ) as [LJ _].
  assert (T1 : edist (nth i G []) (nth i G' []) <= fold_right Rplus 0 (map (grid_tol h bbox) (seq 0 (length bbox)))).
  { destruct CI as [L C]. rewrite <- LB, <- LI, <- L. apply sum_bound. split; [exact L|exact C]. }
  assert (T2 : edist (nth j G []) (nth j G' []) <= fold_right Rplus 0 (map (grid_tol h bbox) (seq 0 (length bbox)))).
  { destruct CJ as [L C]. rewrite <- LB, <- LJ, <- L. apply sum_bound. split; [exact L|exact C]. }
  assert (SM : fold_right Rplus 0 (map (grid_tol h bbox) (seq 0 (length bbox))) = / 2 ^ 50 * fold_right Rplus 0 (map (magnitude h) bbox)).
  { destruct D as [D|D]; [destruct bbox as [|b0 [|b1 [|]]]; try discriminate D|destruct bbox as [|b0 [|b1 [|b2 [|]]]]; try discriminate D]; unfold grid_tol; cbn [length seq map nth fold_right]; ring. }
  destruct CI as [L1 _]. destruct CJ as [L2 _].
  assert (TR : edist (nth i G' []) (nth j G' []) <= edist (nth i G' []) (nth i G []) + (edist (nth i G []) (nth j G []) + edist (nth j G []) (nth j G' []))).
  { eapply Rle_trans; [apply (triangle _ (nth i G []) _)|apply Rplus_le_compat_l, triangle]; lia. }
  rewrite (edist_sym (nth i G' []) (nth i G [])) in TR. rewrite SM in T1, T2. lra.
Qed.
Print Assumptions C108_spacing.
(** The number of rows along an axis differs from the exact number by at most one, and not at all unless the extent is within rounding
    of a multiple of the spacing. *)
Theorem C108_rows : forall lo hi h, bpow radix2 (-1000) <= h -> resolved h (lo, hi) ->
  (n_nodes64 lo hi h <= n_nodes lo (hi + h) h + 1)%nat /\ (n_nodes lo (hi + h) h <= n_nodes64 lo hi h + 1)%nat /\
  ((forall z, / 2 ^ 51 * magnitude h (lo, hi) < Rabs (hi - lo - IZR z * h)) -> n_nodes64 lo hi h = n_nodes lo (hi + h) h).
Proof.
  intros lo hi h Hn R. destruct (n64_vs_n lo hi h Hn R) as [A B]. split; [exact A|]. split; [exact B|]. exact (n64_exact lo hi h Hn R).
Qed.
Print Assumptions C108_rows.
(** Limits and spacing that are multiples of one power of two (whole metres, say): not a single rounding error. *)
Theorem C108_exact_multiples : forall h bbox e, length bbox = 2%nat \/ length bbox = 3%nat -> (-1073 <= e)%Z -> 0 < h -> multiple_of (bpow radix2 e) h ->
  (forall b, In b bbox -> fst b <= snd b /\ multiple_of (bpow radix2 e) (fst b) /\ multiple_of (bpow radix2 e) (snd b)) ->
  create_staggered_grid64 h bbox = create_staggered_grid h bbox.
Proof. exact grid_exact. Qed.
Print Assumptions C108_exact_multiples.

(** rounding of a number from its 53 significant bits *)
Lemma rnd64_bits x m e : (-1074 <= e)%Z -> bpow radix2 (e + 52) <= x < bpow radix2 (e + 53) -> Rabs (x * bpow radix2 (- e) - IZR m) < / 2 -> rnd64 x = IZR m * bpow radix2 e.
Proof.
  intros E B C. assert (X : 0 < x) by (pose proof (bpow_gt_0 radix2 (e + 52)); lra).
  assert (CE : cexp radix2 (FLT_exp (-1074) 53) x = e).
  { unfold cexp. rewrite (mag_unique radix2 x (e + 53)); [unfold FLT_exp; lia|]. rewrite Rabs_right by lra. replace (e + 53 - 1)%Z with (e + 52)%Z by ring. exact B. }
  unfold rnd64, round, scaled_mantissa, F2R. cbn [Fnum Fexp]. rewrite CE. rewrite (Znearest_imp _ _ m); [reflexivity|exact C].
Qed.
(** h = 0.1 on [1, 1.2] (the doubles nearest to them): four rows although three reach beyond 1.2. *)
Definition tenth : R := 3602879701896397 * bpow radix2 (-55).
Definition twelve_tenths : R := 5404319552844595 * bpow radix2 (-52).
Lemma b52 : bpow radix2 (-52) = 8 * bpow radix2 (-55).
Proof. change (-52)%Z with (3 + -55)%Z. rewrite bpow_plus. change (bpow radix2 3) with 8. reflexivity. Qed.
Lemma b55 : bpow radix2 (-55) = / 2 ^ 55.
Proof. change (bpow radix2 (-55)) with (/ IZR (Z.pow_pos 2 55)). f_equal. cbn; lra. Qed.
Theorem C108_extra_row_refuted : Rabs (tenth - 1 / 10) < / 2 ^ 50 /\ Rabs (twelve_tenths - 12 / 10) < / 2 ^ 50 /\ resolved tenth (1, twelve_tenths) /\
  n_nodes64 1 twelve_tenths tenth = 4%nat /\ n_nodes 1 (twelve_tenths + tenth) tenth = 3%nat.
Proof.
  assert (F : tenth = 3602879701896397 / 2 ^ 55 /\ twelve_tenths = 5404319552844595 * 8 / 2 ^ 55) by (unfold tenth, twelve_tenths; rewrite b52, b55; split; lra). destruct F as [FT FW].
  split; [rewrite FT; apply Rabs_def1; lra|]. split; [rewrite FW; apply Rabs_def1; lra|]. split.
  { unfold resolved, magnitude. cbn [fst snd]. rewrite FT, FW. rewrite !Rabs_right by lra. split; lra. }
  split.
  - unfold n_nodes64. rewrite (rnd64_bits (twelve_tenths + tenth) 5854679515581645 (-52)); [|lia| |].
    2:{ change (bpow radix2 (-52 + 52)) with 1. change (bpow radix2 (-52 + 53)) with 2. rewrite FT, FW. lra. }
    2:{ change (bpow radix2 (- -52)) with (IZR (Z.pow_pos 2 52)). rewrite FT, FW. apply Rabs_def1; cbn; lra. }
    replace (5854679515581645 * bpow radix2 (-52) - 1) with (IZR 1351079888211149 * bpow radix2 (-52)).
    2:{ assert (1 = 4503599627370496 * bpow radix2 (-52)) as ->; [rewrite b52, b55; lra|lra]. }
    rewrite fmt_mult by lia. rewrite (rnd64_bits _ (3 * 2251799813685248 + 1) (-51)); [|lia| |].
    2:{ change (bpow radix2 (-51 + 52)) with 2. change (bpow radix2 (-51 + 53)) with 4. rewrite b52, b55, FT. lra. }
    2:{ change (bpow radix2 (- -51)) with (IZR (Z.pow_pos 2 51)). rewrite b52, b55, FT. apply Rabs_def1; cbn; lra. }
    change (bpow radix2 (-51)) with (/ IZR (Z.pow_pos 2 51)). rewrite (Zceil_imp 4); [reflexivity|]. cbn; lra.
  - unfold n_nodes. rewrite FT, FW. rewrite (Zceil_imp 3); [reflexivity|]. cbn; lra.
Qed.
Print Assumptions C108_extra_row_refuted.
(** The other way round: far from the origin a row can be missing; here the last row lies 1/33 of a spacing below the upper limit. *)
Theorem C108_missing_row_refuted : let lo := 2 ^ 30 in let hi := 2 ^ 30 + 25 / 2 ^ 22 in let h := 33 / 2 ^ 24 in
  resolved h (lo, hi) /\ n_nodes64 lo hi h = 4%nat /\ n_nodes lo (hi + h) h = 5%nat /\ node lo h 3 < hi.
Proof.
  cbv zeta. split.
  { unfold resolved, magnitude. cbn [fst snd]. rewrite !Rabs_right by lra. split; lra. }
  split; [|split; [|unfold node; cbn [INR]; lra]].
  - unfold n_nodes64. assert (B22 : bpow radix2 (-22) = / 2 ^ 22) by (change (bpow radix2 (-22)) with (/ IZR (Z.pow_pos 2 22)); f_equal; cbn; lra).
    rewrite (rnd64_bits (2 ^ 30 + 25 / 2 ^ 22 + 33 / 2 ^ 24) (4503599627370496 + 33) (-22)); [|lia| |].
    2:{ change (bpow radix2 (-22 + 52)) with (IZR (Z.pow_pos 2 30)). change (bpow radix2 (-22 + 53)) with (IZR (Z.pow_pos 2 31)). cbn; lra. }
    2:{ change (bpow radix2 (- -22)) with (IZR (Z.pow_pos 2 22)). apply Rabs_def1; cbn; lra. }
    replace (IZR (4503599627370496 + 33) * bpow radix2 (-22) - 2 ^ 30) with (IZR 33 * bpow radix2 (-22)) by (rewrite B22; cbn; lra). rewrite fmt_mult by lia.
    replace (IZR 33 * bpow radix2 (-22) / (33 / 2 ^ 24)) with (IZR 4 * bpow radix2 0) by (rewrite B22; cbn; lra). rewrite fmt_mult by lia.
    replace (IZR 4 * bpow radix2 0) with (IZR 4) by (cbn; lra). rewrite Zceil_IZR. reflexivity.
  - unfold n_nodes. rewrite (Zceil_imp 5); [reflexivity|]. cbn; lra.
Qed.
Print Assumptions C108_missing_row_refuted.

(** whole numbers: h = 1 on [0,2] x [0,1]; and a box in metres that meets the hypotheses of the general theorems *)
Example C108_case : create_staggered_grid64 1 [(0,2);(0,1)] = [[0;0];[0;1];[1;1/2];[1;3/2];[2;0];[2;1]] /\
  Forall (resolved (75 / 10)) [(-4200, 0); (0, 13520)] /\ bpow radix2 (-1000) <= 75 / 10.
Proof.
  split; [|split].
  - rewrite (C108_exact_multiples 1 [(0,2);(0,1)] 0); [exact C65_case|left; reflexivity|lia|lra| |].
    + exists 1%Z. split; [cbn; lra|lia].
    + intros b [<- | [<- | []]]; cbn [fst snd]; (split; [lra|]); split; [exists 0%Z|exists 2%Z|exists 0%Z|exists 1%Z]; (split; [cbn; lra|lia]).
  - constructor; [|constructor; [|constructor]]; unfold resolved, magnitude; cbn [fst snd]; [rewrite (Rabs_left (-4200)) by lra|rewrite (Rabs_right 13520) by lra]; rewrite Rabs_R0; split; lra.
  - apply Rle_trans with (bpow radix2 0); [apply bpow_le; lia|cbn; lra].
Qed.
