(** Grids of the ranks *)
From Coq Require Import List ZArith Reals Bool Arith Lia Lra.
From Flocq Require Import Core.
From Verif Require Import Model.Base Model.InitGrid Spec.Geom Proofs.ListAux Proofs.MeshAux Proofs.InitGridProofs.
Import ListNotations.
Local Open Scope R_scope.

Notation boxl := (list (R * R)).
Definition dim23 (bbox : boxl) : Prop := length bbox = 2%nat \/ length bbox = 3%nat.
(** coordinates of a grid point: node j_k of axis k, shifted by the parity of the first index *)
Lemma in_grid h bbox q : dim23 bbox -> (In q (create_staggered_grid h bbox) <->
  exists js, length js = length bbox /\ length q = length bbox /\
   (forall k, (k < length bbox)%nat -> let b := nth k bbox (0, 0) in (nth k js 0 < n_nodes (fst b) (snd b + h) h)%nat /\
      nth k q 0 = node (fst b) h (nth k js O) + match k with O => 0 | _ => shift h (nth 0 js O) end)).
Proof.
  intros D. destruct bbox as [|b0 [|b1 [|b2 [|? ?]]]]; try (destruct D as [D|D]; discriminate).
  - unfold create_staggered_grid. rewrite in_staggered2. split.
    + intros [i [j [Hi [Hj ->]]]]. exists [i; j]. split; [reflexivity|]. split; [reflexivity|]. intros k Hk. cbn [length] in Hk. destruct k as [|[|k]]; [..|lia]; cbn [nth]; (split; [assumption|]); ring.
    + intros [js [L [LQ H]]]. destruct js as [|i [|j [|]]]; try discriminate. destruct q as [|q0 [|q1 [|]]]; try discriminate. exists i, j.
      destruct (H 0%nat ltac:(cbn; lia)) as [A0 B0]. destruct (H 1%nat ltac:(cbn; lia)) as [A1 B1]. cbn [nth] in *. split; [exact A0|]. split; [exact A1|]. rewrite B0, B1. repeat (f_equal; try ring).
  - unfold create_staggered_grid. rewrite in_staggered3. split.
    + intros [i [j [l [Hi [Hj [Hl ->]]]]]]. exists [i; j; l]. split; [reflexivity|]. split; [reflexivity|]. intros k Hk. cbn [length] in Hk. destruct k as [|[|[|k]]]; [..|lia]; cbn [nth]; (split; [assumption|]); ring.
    + intros [js [L [LQ H]]]. destruct js as [|i [|j [|l [|]]]]; try discriminate. destruct q as [|q0 [|q1 [|q2 [|]]]]; try discriminate. exists i, j, l.
      destruct (H 0%nat ltac:(cbn; lia)) as [A0 B0]. destruct (H 1%nat ltac:(cbn; lia)) as [A1 B1]. destruct (H 2%nat ltac:(cbn; lia)) as [A2 B2]. cbn [nth] in *.
      split; [exact A0|]. split; [exact A1|]. split; [exact A2|]. rewrite B0, B1, B2. repeat (f_equal; try ring).
Qed.
Lemma shift_bounds h i : 0 < h -> 0 <= shift h i <= h / 2.
Proof. intros Hh. unfold shift. destruct (Nat.odd i); lra. Qed.
Lemma grid_bounds h bbox q k : dim23 bbox -> 0 < h -> In q (create_staggered_grid h bbox) -> (k < length bbox)%nat ->
  fst (nth k bbox (0,0)) <= nth k q 0 < snd (nth k bbox (0,0)) + 3 / 2 * h.
Proof.
  intros D Hh H Hk. apply (in_grid h bbox q D) in H. destruct H as [js [_ [_ H]]]. specialize (H k Hk). cbv zeta in H. destruct H as [A ->].
  pose proof (node_bounds _ _ h Hh _ A) as B. pose proof (shift_bounds h (nth 0 js O) Hh) as S. destruct k; lra.
Qed.
Lemma grid_spacing h bbox p q : dim23 bbox -> 0 < h -> In p (create_staggered_grid h bbox) -> In q (create_staggered_grid h bbox) -> p <> q -> h <= edist p q.
Proof.
  intros D Hh. destruct bbox as [|b0 [|b1 [|b2 [|? ?]]]]; try (destruct D as [D|D]; discriminate); [apply spacing2, Hh|apply spacing3, Hh].
Qed.
Lemma grid_nodup h bbox : dim23 bbox -> 0 < h -> NoDup (create_staggered_grid h bbox).
Proof.
  intros D Hh. destruct bbox as [|b0 [|b1 [|b2 [|? ?]]]]; try (destruct D as [D|D]; discriminate); [apply nodup2, Hh|apply nodup3, Hh].
Qed.
Lemma grid_cover h bbox x : dim23 bbox -> 0 < h -> length x = length bbox -> (forall k, (k < length bbox)%nat -> fst (nth k bbox (0,0)) <= nth k x 0 <= snd (nth k bbox (0,0))) ->
  exists q, In q (create_staggered_grid h bbox) /\ length q = length bbox /\ forall k, (k < length bbox)%nat -> Rabs (nth k x 0 - nth k q 0) <= h / 2.
Proof.
  intros D Hh L B. destruct bbox as [|b0 [|b1 [|b2 [|? ?]]]]; try (destruct D as [D|D]; discriminate).
  - destruct (cover_plain _ _ h _ Hh (B 0%nat ltac:(cbn; lia))) as [i [Li Ci]]. destruct (cover _ _ h _ i Hh (B 1%nat ltac:(cbn; lia))) as [j [Lj Cj]]. cbn [nth] in *.
    exists [node (fst b0) h i; node (fst b1) h j + shift h i]. split; [apply in_staggered2; exists i, j; auto|]. split; [reflexivity|].
    intros k Hk. cbn [length] in Hk. destruct k as [|[|k]]; [..|lia]; cbn [nth]; assumption.
  - destruct (cover_plain _ _ h _ Hh (B 0%nat ltac:(cbn; lia))) as [i [Li Ci]]. destruct (cover _ _ h _ i Hh (B 1%nat ltac:(cbn; lia))) as [j [Lj Cj]].
    destruct (cover _ _ h _ i Hh (B 2%nat ltac:(cbn; lia))) as [l [Ll Cl]]. cbn [nth] in *.
    exists [node (fst b0) h i; node (fst b1) h j + shift h i; node (fst b2) h l + shift h i]. split; [apply in_staggered3; exists i, j, l; auto|]. split; [reflexivity|].
    intros k Hk. cbn [length] in Hk. destruct k as [|[|[|k]]]; [..|lia]; cbn [nth]; assumption.
Qed.
Lemma grid_corner h bbox : dim23 bbox -> 0 < h -> Forall (fun b => fst b <= snd b) bbox -> In (map fst bbox) (create_staggered_grid h bbox).
Proof.
  intros D Hh F. apply (in_grid h bbox _ D). exists (repeat O (length bbox)). rewrite repeat_length, map_length. split; [reflexivity|]. split; [reflexivity|].
  intros k Hk. cbv zeta. rewrite (nth_map' fst bbox k 0 (0,0) Hk).
  assert (forall k n, nth k (repeat O n) O = O) as R0. { clear. intros k n. revert k. induction n as [|n IH]; intros [|k]; cbn; auto. }
  rewrite !R0. split.
  - rewrite Forall_forall in F. specialize (F _ (nth_In bbox (0,0) Hk)). pose proof (n_nodes_pos (fst (nth k bbox (0,0))) (snd (nth k bbox (0,0)) + h) h Hh ltac:(lra)). lia.
  - unfold node, shift. cbn. destruct k; ring.
Qed.

(** ---- ranks ---- *)
Section Ranks.
Variables (b : R * R) (size : nat) (h : R).
Hypothesis Hh : 0 < h.
Hypothesis Hb : fst b <= snd b.
Hypothesis Hs : (0 < size)%nat.
Let D := (snd b - fst b) / INR size.
Lemma D_nn : 0 <= D.
Proof. apply Rmult_le_pos; [lra|]. left. apply Rinv_0_lt_compat. apply (lt_INR 0). exact Hs. Qed.
Lemma limit_S i : limit b size (S i) = limit b size i + D.
Proof. unfold limit. fold D. rewrite S_INR. ring. Qed.
Lemma limit_le i j : (i <= j)%nat -> limit b size i <= limit b size j.
Proof. intros L. unfold limit. fold D. apply Rplus_le_compat_l, Rmult_le_compat_r; [apply D_nn|apply le_INR, L]. Qed.
Lemma n_block i : n_nodes (limit b size i) (limit b size (S i) + h) h = S (Z.to_nat (Zceil (D / h))).
Proof.
  rewrite ceil_shift; [|exact Hh|rewrite limit_S; pose proof D_nn; lra]. do 3 f_equal. rewrite limit_S. f_equal. ring.
Qed.
Lemma c1_nn : (0 <= Zceil (D / h))%Z.
Proof.
  assert (0 <= D / h) as P by (apply Rmult_le_pos; [apply D_nn|left; apply Rinv_0_lt_compat, Hh]). apply le_IZR. pose proof (ceil_bounds (D / h)). lra.
Qed.
Lemma span0 : local_span b size 0 h = (limit b size 0, limit b size 1).
Proof. reflexivity. Qed.
Lemma spanS r : local_span b size (S r) h = (limit b size r + (IZR (Zceil (D / h)) + 1) * h, limit b size (S (S r))).
Proof.
  unfold local_span. rewrite n_block. f_equal. replace (S (Z.to_nat (Zceil (D / h))) - 1)%nat with (Z.to_nat (Zceil (D / h))) by lia.
  unfold node. rewrite INR_IZR_INZ, Z2Nat.id by apply c1_nn. ring.
Qed.
Lemma span_snd r : snd (local_span b size r h) = limit b size (S r).
Proof. destruct r; [reflexivity|]. rewrite spanS. reflexivity. Qed.
Lemma span_start r : limit b size r <= fst (local_span b size r h) /\ ((0 < r)%nat -> limit b size r + h <= fst (local_span b size r h)).
Proof.
  destruct r as [|r]; [split; [cbn; lra|lia]|]. rewrite spanS. cbn [fst]. rewrite limit_S.
  pose proof (ceil_bounds (D / h)) as B. assert (D <= IZR (Zceil (D / h)) * h) as E by (apply (div_le h Hh); lra). split; [|intros _]; lra.
Qed.
(** nodes of an earlier rank are below those of a later one *)
Lemma ranks_ordered r s i j : (r < s)%nat -> (i < n_nodes (fst (local_span b size r h)) (snd (local_span b size r h) + h) h)%nat ->
  node (fst (local_span b size r h)) h i < node (fst (local_span b size s h)) h j.
Proof.
  intros L Hi. pose proof (node_bounds _ _ h Hh _ Hi) as B. rewrite span_snd in B.
  destruct (span_start s) as [_ ST]. specialize (ST ltac:(lia)). pose proof (limit_le (S r) s L) as LE.
  assert (fst (local_span b size s h) <= node (fst (local_span b size s h)) h j) as P.
  { unfold node. pose proof (Rmult_le_pos _ _ (pos_INR j) (Rlt_le _ _ Hh)). lra. }
  lra.
Qed.
(** last node of a rank and first node of the next one *)
Definition last_node (r : nat) : R := node (fst (local_span b size r h)) h (n_nodes (fst (local_span b size r h)) (snd (local_span b size r h) + h) h - 1).
Lemma ceil_shift_Z x z : Zceil (x + IZR z) = (Zceil x + z)%Z.
Proof. apply Zceil_imp. rewrite minus_IZR, plus_IZR. pose proof (ceil_bounds x). lra. Qed.
Lemma gap0 : fst (local_span b size 1 h) - last_node 0 = h.
Proof.
  rewrite spanS. unfold last_node. rewrite span0. cbn [fst snd]. rewrite n_block. replace (S (Z.to_nat (Zceil (D / h))) - 1)%nat with (Z.to_nat (Zceil (D / h))) by lia.
  unfold node. rewrite INR_IZR_INZ, Z2Nat.id by apply c1_nn. ring.
Qed.
Lemma double_ceil w : let c := Zceil w in (Zceil (2 * w) = 2 * c \/ Zceil (2 * w) = 2 * c - 1)%Z /\
  ((Zceil (2 * w) = 2 * c)%Z -> / 2 < w + 1 - IZR c <= 1) /\ ((Zceil (2 * w) = 2 * c - 1)%Z -> / 2 < w + 1 - IZR c + 1 <= 3 / 2).
Proof.
  intros c. pose proof (ceil_bounds w) as B. fold c in B. assert ((Zceil (2 * w) = 2 * c)%Z \/ (Zceil (2 * w) = 2 * c - 1)%Z) as E.
  { destruct (Rlt_le_dec (IZR c - / 2) w) as [L|L]; [left|right]; apply Zceil_imp; rewrite ?minus_IZR, ?mult_IZR; lra. }
  split; [exact E|]. pose proof (ceil_bounds (2 * w)) as B2. split; intros E2; rewrite E2 in B2; rewrite ?minus_IZR, ?mult_IZR in B2; lra.
Qed.
Lemma n_rankS r : h / 2 < D -> n_nodes (fst (local_span b size (S r) h)) (snd (local_span b size (S r) h) + h) h = Z.to_nat (Zceil (2 * (D / h)) - Zceil (D / h)) /\
  (1 <= Zceil (2 * (D / h)) - Zceil (D / h))%Z.
Proof.
  intros HD. split.
  - rewrite spanS. cbn [fst snd]. unfold n_nodes. f_equal.
    replace ((limit b size (S (S r)) + h - (limit b size r + (IZR (Zceil (D / h)) + 1) * h)) / h) with (2 * (D / h) + IZR (- Zceil (D / h))).
    + rewrite ceil_shift_Z. lia.
    + rewrite !limit_S, opp_IZR. field. lra.
  - assert (/ 2 < D / h) as W by (apply (div_gt h Hh); lra).
    pose proof (double_ceil (D / h)) as [E _]. pose proof (ceil_bounds (D / h)) as B. set (c := Zceil (D / h)) in *.
    assert (0 < c)%Z as C0 by (apply lt_IZR; lra). destruct E as [E|E]; [lia|]. assert (c <> 1)%Z; [|lia]. intros C1. rewrite C1 in *.
    pose proof (ceil_bounds (2 * (D / h))) as B2. rewrite E in B2. cbn in B2. lra.
Qed.
Lemma gapS r : h / 2 < D -> h / 2 < fst (local_span b size (S (S r)) h) - last_node (S r) <= 3 / 2 * h /\
  fst (local_span b size (S (S r)) h) - last_node (S r) = (D / h + IZR (Zceil (D / h)) + 1 - IZR (Zceil (2 * (D / h)))) * h.
Proof.
  intros HD. destruct (n_rankS r HD) as [N N1].
  assert (fst (local_span b size (S (S r)) h) - last_node (S r) = (D / h + IZR (Zceil (D / h)) + 1 - IZR (Zceil (2 * (D / h)))) * h) as E.
  { unfold last_node. rewrite N. rewrite !spanS. cbn [fst]. unfold node. rewrite minus_INR by lia. rewrite (INR_IZR_INZ (Z.to_nat _)), Z2Nat.id by lia. rewrite minus_IZR, limit_S. cbn [INR]. field. lra. }
  split; [|exact E]. rewrite E. pose proof (double_ceil (D / h)) as [C [C1 C2]]. destruct C as [C|C]; [specialize (C1 C)|specialize (C2 C)]; rewrite C; rewrite ?minus_IZR, ?mult_IZR.
  - assert (/ 2 * h < (D / h + 1 - IZR (Zceil (D / h))) * h <= 1 * h) as B by (split; [apply Rmult_lt_compat_r|apply Rmult_le_compat_r]; lra). lra.
  - assert (/ 2 * h < (D / h + 1 - IZR (Zceil (D / h)) + 1) * h <= 3 / 2 * h) as B by (split; [apply Rmult_lt_compat_r|apply Rmult_le_compat_r]; lra). lra.
Qed.
End Ranks.
(** box of a rank *)
Definition rank_box (bbox : boxl) (rank size axis : nat) (h : R) : boxl :=
  map (fun i => if (i =? axis)%nat then local_span (nth i bbox (0, 0)) size rank h else nth i bbox (0, 0)) (seq 0 (length bbox)).
Lemma rank_box_nth bbox rank size axis h k : (k < length bbox)%nat -> nth k (rank_box bbox rank size axis h) (0,0) =
  if (k =? axis)%nat then local_span (nth k bbox (0,0)) size rank h else nth k bbox (0,0).
Proof. intros L. unfold rank_box. rewrite (nth_map' _ _ k (0,0) O) by (rewrite seq_length; exact L). rewrite seq_nth by exact L. reflexivity. Qed.
Lemma rank_box_len bbox rank size axis h : length (rank_box bbox rank size axis h) = length bbox.
Proof. unfold rank_box. rewrite map_length, seq_length. reflexivity. Qed.
Lemma no_common_point bbox r s size axis h q : dim23 bbox -> 0 < h -> (axis < length bbox)%nat -> Forall (fun b => fst b <= snd b) bbox -> (0 < size)%nat -> (r < s)%nat ->
  In q (make_init_points bbox r size axis h) -> In q (make_init_points bbox s size axis h) -> False.
Proof.
  intros D Hh HA HF Hs L H1 H2. unfold make_init_points in H1, H2. fold (rank_box bbox r size axis h) in H1. fold (rank_box bbox s size axis h) in H2.
  assert (dim23 (rank_box bbox r size axis h) /\ dim23 (rank_box bbox s size axis h)) as [D1 D2] by (unfold dim23; rewrite !rank_box_len; tauto).
  apply (in_grid _ _ _ D1) in H1. apply (in_grid _ _ _ D2) in H2. destruct H1 as [is [_ [_ H1]]]. destruct H2 as [js [_ [_ H2]]]. rewrite rank_box_len in H1, H2.
  pose proof (H1 axis HA) as A1. pose proof (H2 axis HA) as A2. cbv zeta in A1, A2. rewrite rank_box_nth in A1, A2 by exact HA. rewrite Nat.eqb_refl in A1, A2. destruct A1 as [L1 E1]. destruct A2 as [_ E2].
  rewrite Forall_forall in HF. specialize (HF _ (nth_In bbox (0,0) HA)).
  pose proof (ranks_ordered _ size h Hh HF Hs r s _ (nth axis js O) L L1) as ORD.
  destruct axis as [|axis]; [rewrite E1 in E2; lra|].
  assert (0 < length bbox)%nat as P0 by lia. pose proof (H1 0%nat P0) as B1. pose proof (H2 0%nat P0) as B2. cbv zeta in B1, B2. rewrite rank_box_nth in B1, B2 by exact P0. cbn [Nat.eqb] in B1, B2.
  destruct B1 as [_ F1]. destruct B2 as [_ F2]. rewrite F1 in F2. assert (nth 0 is O = nth 0 js O) as EI by (apply (node_inj (fst (nth 0 bbox (0,0))) h); [exact Hh|lra]).
  rewrite EI in E1. rewrite E1 in E2. lra.
Qed.
(** coverage by the local sizing grid *)
Lemma sizing_covers bbox r size axis h q k : dim23 bbox -> 0 < h -> Forall (fun b => fst b <= snd b) bbox -> (r < size)%nat ->
  In q (make_init_points bbox r size axis h) -> (k < length bbox)%nat ->
  exists a b, In a (nth k (sizing_vectors bbox r size axis h) []) /\ In b (nth k (sizing_vectors bbox r size axis h) []) /\ a <= nth k q 0 <= b.
Proof.
  intros D Hh HF Hs H Hk. unfold make_init_points in H. fold (rank_box bbox r size axis h) in H.
  assert (dim23 (rank_box bbox r size axis h)) as D1 by (unfold dim23; rewrite rank_box_len; exact D).
  pose proof (grid_bounds h _ q k D1 Hh H ltac:(rewrite rank_box_len; exact Hk)) as B. rewrite rank_box_nth in B by exact Hk.
  rewrite Forall_forall in HF. specialize (HF _ (nth_In bbox (0,0) Hk)). set (bk := nth k bbox (0,0)) in *.
  assert (exists lo hi, nth k (sizing_vectors bbox r size axis h) [] = arange (lo - 3 * h) (hi + 3 * h) h /\ lo <= hi /\ lo <= nth k q 0 < hi + 3 / 2 * h) as [lo [hi [E [L LQ]]]].
  { unfold sizing_vectors. rewrite (nth_map' _ _ k [] O) by (rewrite seq_length; exact Hk). rewrite seq_nth by exact Hk. cbv zeta. rewrite Nat.add_0_l. fold bk.
    destruct (k =? axis)%nat.
    - exists (limit bk size r), (limit bk size (S r)). split; [reflexivity|]. split; [apply limit_le; [exact HF|lia|lia]|]. rewrite span_snd in B by (try exact Hh; try exact HF; lia).
      destruct (span_start bk size h Hh HF ltac:(lia) r) as [ST _]. lra.
    - exists (fst bk), (snd bk). split; [reflexivity|]. split; [exact HF|exact B]. }
  rewrite E. pose proof (n_nodes_pos (lo - 3 * h) (hi + 3 * h) h Hh ltac:(lra)) as N1. pose proof (last_bounds (lo - 3 * h) (hi + 3 * h) h Hh ltac:(lra)) as LB.
  exists (node (lo - 3 * h) h 0), (node (lo - 3 * h) h (n_nodes (lo - 3 * h) (hi + 3 * h) h - 1)).
  split; [apply in_map, in_seq; lia|]. split; [apply in_map, in_seq; lia|]. split; [unfold node; cbn; lra|lra].
Qed.
