(** C116: on several processes, what the size function handed to a rank has to do with the one passed in. *)
From Coq Require Import Reals List Arith Bool Lia Lra.
From Flocq Require Import Core.
From Verif Require Import Model.Base Model.InitGrid Model.Localize Model.Interp Model.Generator Model.Parallel Spec.Interp Spec.Lockstep
  Proofs.ListAux Proofs.MeshAux Proofs.InitGridProofs Proofs.InitRanks Proofs.InterpProofs Props.P14_localize.
Import ListNotations.
Local Open Scope R_scope.

(** ---- specification ---- *)
(** every coordinate of y is within w of that of x *)
Definition within (w : R) (x y : list R) : Prop := Forall2 (fun a b => Rabs (a - b) <= w) x y.
(** lower and upper end, on axis i, of the part of the box rank r of size samples: the r-th of [size] equal slices on the split axis, the whole extent on the others *)
Definition slice_lo (bbox : list (R * R)) (r size axis i : nat) : R :=
  let b := nth i bbox (0, 0) in if Nat.eqb i axis then fst b + INR r * ((snd b - fst b) / INR size) else fst b.
Definition slice_hi (bbox : list (R * R)) (r size axis i : nat) : R :=
  let b := nth i bbox (0, 0) in if Nat.eqb i axis then fst b + INR (S r) * ((snd b - fst b) / INR size) else snd b.
(** x lies in the rank's slice, or at most 3 h0 below and 2 h0 above it, on every axis *)
Definition near_slice (bbox : list (R * R)) (r size axis : nat) (h0 : R) (x : list R) : Prop :=
  length x = length bbox /\ forall i, (i < length bbox)%nat -> slice_lo bbox r size axis i - 3 * h0 <= nth i x 0 <= slice_hi bbox r size axis i + 2 * h0.
(** the nodes the size function is sampled at: h0 apart on every axis, from 3 h0 below the slice *)
Definition sample_node (bbox : list (R * R)) (r size axis : nat) (h0 : R) (x : list R) : Prop :=
  length x = length bbox /\ forall i, (i < length bbox)%nat -> exists k, nth i x 0 = slice_lo bbox r size axis i - 3 * h0 + INR k * h0 /\ nth i x 0 < slice_hi bbox r size axis i + 3 * h0.

(** ---- interpolation from the corners of one cell ---- *)
Lemma lerp_local g (G : is_axis g) v lo hi x : nth 0 g 0 <= x <= nth (length g - 1) g 0 ->
  (forall i, (i = cell_of g x \/ i = S (cell_of g x)) -> lo <= v i <= hi) -> lo <= lerp g v (cell_of g x) x <= hi.
Proof.
  intros Hx Hv. pose proof (cell_range g G x) as Hc. pose proof (cell_inside g G x Hx) as Hi. set (c := cell_of g x) in *.
  pose proof (Hv c (or_introl eq_refl)). pose proof (Hv (S c) (or_intror eq_refl)). pose proof (ax_lt g G c (S c) ltac:(lia)) as Hlt.
  assert (0 <= weight g c x <= 1) as [W0 W1].
  { unfold weight. split.
    - apply Rmult_le_pos; [lra|]. left. apply Rinv_0_lt_compat. lra.
    - apply (Rmult_le_reg_r (nth (S c) g 0 - nth c g 0)); [lra|]. unfold Rdiv. rewrite Rmult_assoc, Rinv_l by lra. lra. }
  unfold lerp. split; nra.
Qed.
Lemma interp_near w : forall gs, Forall is_axis gs -> Forall (fun g => forall i, (S i < length g)%nat -> nth (S i) g 0 - nth i g 0 <= w) gs -> forall f x lo hi, covered gs x ->
  (forall ks, in_range gs ks -> within w x (node_at gs ks) -> lo <= f ks <= hi) -> lo <= interp gs f x <= hi.
Proof.
  induction gs as [|g gs IH]; intros HA HG f x lo hi HC HV; inversion HC as [|? ? x0 xs C0 C1]; subst; [apply HV; constructor|].
  inversion HA as [|? ? A0 A1]; subst. inversion HG as [|? ? G0 G1]; subst. rewrite interp_cons. apply lerp_local; [exact A0|exact C0|].
  intros i Hi. pose proof (cell_range g A0 x0) as Hc. pose proof (cell_inside g A0 x0 C0) as HI. pose proof (G0 _ Hc) as HG0.
  apply IH; [exact A1|exact G1|exact C1|]. intros ks Hk Hw. apply HV.
  - constructor; [destruct Hi as [-> | ->]; lia|exact Hk].
  - cbn [node_at]. constructor; [|exact Hw]. apply Rabs_le. destruct Hi as [-> | ->]; lra.
Qed.
(** the array sent is read at the right place *)
Lemma in_range_forall2 vecs ks : in_range vecs ks -> Forall2 (fun k v => (k < length v)%nat) ks vecs.
Proof. induction 1; constructor; assumption. Qed.
Lemma flat_order vecs : forall ks, flat_index vecs ks = c_order (map (@length R) vecs) ks.
Proof. induction vecs as [|v vecs IH]; intros [|k ks]; try reflexivity. cbn [flat_index map c_order]. rewrite IH, grid_of_length. reflexivity. Qed.
Lemma entry_node vecs : forall ks, entry_point vecs ks = node_at vecs ks.
Proof. reflexivity. Qed.
Lemma sent_value fh vecs ks : in_range vecs ks -> nth (flat_index vecs ks) (map fh (grid_of vecs)) 0 = fh (node_at vecs ks).
Proof.
  intros IR. destruct (grid_of_nth vecs ks (in_range_forall2 _ _ IR)) as [L E]. rewrite flat_order. rewrite (nth_map' fh (grid_of vecs) _ 0 []) by exact L. rewrite E, entry_node. reflexivity.
Qed.

(** ---- the rank's grid ---- *)
Section Grid.
Variables (bbox : list (R * R)) (r size axis : nat) (h0 : R).
Hypotheses (H0 : 0 < h0) (BB : Forall (fun b => fst b <= snd b) bbox) (RS : (r < size)%nat).
Let lo := slice_lo bbox r size axis.
Let hi := slice_hi bbox r size axis.
Lemma slice_le i : (i < length bbox)%nat -> lo i <= hi i.
Proof.
  intros L. unfold lo, hi, slice_lo, slice_hi. rewrite Forall_forall in BB. specialize (BB _ (nth_In bbox (0,0) L)). destruct (Nat.eqb i axis); [|exact BB].
  assert (0 < INR size) by (apply lt_0_INR; lia). rewrite S_INR. assert (0 <= (snd (nth i bbox (0,0)) - fst (nth i bbox (0,0))) / INR size).
  { apply Rmult_le_pos; [lra|]. left. apply Rinv_0_lt_compat. lra. } lra.
Qed.
Definition vec (i : nat) : list R := arange (lo i - 3 * h0) (hi i + 3 * h0) h0.
Lemma vectors : sizing_vectors bbox r size axis h0 = map vec (seq 0 (length bbox)).
Proof.
  unfold sizing_vectors, vec, lo, hi, slice_lo, slice_hi. apply map_ext. intros i. destruct (Nat.eqb i axis); reflexivity.
Qed.
Lemma vec_len i : length (vec i) = n_nodes (lo i - 3 * h0) (hi i + 3 * h0) h0.
Proof. unfold vec, arange. rewrite map_length, seq_length. reflexivity. Qed.
Lemma vec_nth i k : (k < length (vec i))%nat -> nth k (vec i) 0 = node (lo i - 3 * h0) h0 k.
Proof. rewrite vec_len. intros L. unfold vec, arange. rewrite (nth_map' _ _ k 0 O) by (rewrite seq_length; exact L). rewrite seq_nth by exact L. reflexivity. Qed.
Lemma vec_many i : (i < length bbox)%nat -> (2 <= length (vec i))%nat.
Proof.
  intros L. pose proof (slice_le i L). rewrite vec_len. assert (lo i - 3 * h0 < hi i + 3 * h0) as P by lra. pose proof (last_bounds (lo i - 3 * h0) (hi i + 3 * h0) h0 H0 P) as LB.
  destruct (n_nodes (lo i - 3 * h0) (hi i + 3 * h0) h0) as [|[|n]]; [|cbn in LB; unfold node in LB; cbn in LB; lra|lia]. cbn in LB. unfold node in LB. cbn in LB. lra.
Qed.
Lemma vec_axis i : (i < length bbox)%nat -> is_axis (vec i).
Proof.
  intros L. split; [apply vec_many, L|]. intros a b AB. rewrite !vec_nth by lia. unfold node. assert (INR a < INR b) by (apply lt_INR; lia). nra.
Qed.
Lemma vec_gap i k : (S k < length (vec i))%nat -> nth (S k) (vec i) 0 - nth k (vec i) 0 <= h0.
Proof. intros L. rewrite !vec_nth by lia. unfold node. rewrite S_INR. lra. Qed.
Lemma grid_axes : Forall is_axis (sizing_vectors bbox r size axis h0).
Proof. rewrite vectors. apply Forall_forall. intros g G. apply in_map_iff in G as (i & <- & I). apply in_seq in I. apply vec_axis. lia. Qed.
Lemma grid_gaps : Forall (fun g => forall i, (S i < length g)%nat -> nth (S i) g 0 - nth i g 0 <= h0) (sizing_vectors bbox r size axis h0).
Proof. rewrite vectors. apply Forall_forall. intros g G. apply in_map_iff in G as (i & <- & I). intros k. apply vec_gap. Qed.
Lemma covered_map f s : forall x, length x = length s -> (forall j, (j < length s)%nat -> nth 0 (f (nth j s O)) 0 <= nth j x 0 <= nth (length (f (nth j s O)) - 1) (f (nth j s O)) 0) -> covered (map f s) x.
Proof.
  induction s as [|a s IH]; intros [|y x] L H; try discriminate; cbn [map]; constructor.
  - exact (H 0%nat ltac:(cbn; lia)).
  - apply IH; [cbn in L; lia|]. intros j J. exact (H (S j) ltac:(cbn; lia)).
Qed.
Lemma slice_covered x : near_slice bbox r size axis h0 x -> covered (sizing_vectors bbox r size axis h0) x.
Proof.
  intros (L & NB). rewrite vectors. apply covered_map; [rewrite seq_length; exact L|]. rewrite seq_length. intros j J. rewrite seq_nth by exact J. cbn [plus].
  pose proof (vec_many j J) as M. rewrite !vec_nth by lia. rewrite vec_len in *. specialize (NB j J). pose proof (slice_le j J) as SL. fold lo in NB. fold hi in NB.
  pose proof (last_bounds (lo j - 3 * h0) (hi j + 3 * h0) h0 H0 ltac:(lra)) as LB. unfold node at 1. cbn [INR]. lra.
Qed.
Lemma range_map f s : forall x, length x = length s -> (forall j, (j < length s)%nat -> exists k, (k < length (f (nth j s O)))%nat /\ nth j x 0 = nth k (f (nth j s O)) 0) ->
  exists ks, in_range (map f s) ks /\ x = node_at (map f s) ks.
Proof.
  induction s as [|a s IH]; intros [|y x] L H; try discriminate; cbn [map]; [exists []; split; [constructor|reflexivity]|].
  destruct (H 0%nat ltac:(cbn; lia)) as (k & K & E). destruct (IH x) as (ks & I & ->); [cbn in L; lia|intros j J; exact (H (S j) ltac:(cbn; lia))|].
  exists (k :: ks). split; [constructor; assumption|]. cbn [node_at]. f_equal. exact E.
Qed.
Lemma node_index x : sample_node bbox r size axis h0 x -> exists ks, in_range (sizing_vectors bbox r size axis h0) ks /\ x = node_at (sizing_vectors bbox r size axis h0) ks.
Proof.
  intros (L & N). rewrite vectors. apply range_map; [rewrite seq_length; exact L|]. rewrite seq_length. intros j J. rewrite seq_nth by exact J. cbn [plus].
  destruct (N j J) as (k & E & U). fold lo in E. fold hi in U. pose proof (slice_le j J) as SL.
  assert (k < length (vec j))%nat as K.
  { rewrite vec_len. pose proof (last_bounds (lo j - 3 * h0) (hi j + 3 * h0) h0 H0 ltac:(lra)) as LB. unfold node in LB. set (n := n_nodes _ _ _) in *. pose proof (vec_many j J) as M. rewrite vec_len in M. fold n in M.
    rewrite minus_INR in LB by lia. change (INR 1) with 1 in LB. destruct (le_lt_dec n k) as [Q|Q]; [|exact Q]. exfalso. apply le_INR in Q. nra. }
  exists k. split; [exact K|]. rewrite vec_nth by exact K. exact E.
Qed.
End Grid.

Section Claims.
Variables (d : dom_arg) (s : size_arg) (size axis r : nat) (h0 : R).
Let bbox := pairs_of (full_bbox d s).
Hypotheses (H0 : 0 < h0) (BB : Forall (fun b => fst b <= snd b) bbox) (RS : (r < size)%nat).
Lemma sampled_near x lo hi : near_slice bbox r size axis h0 x -> (forall y, within h0 x y -> lo <= size_fh s y <= hi) -> lo <= sampled_size size axis d s h0 r x <= hi.
Proof.
  intros NS V. unfold sampled_size. fold bbox. apply (interp_near h0).
  - apply grid_axes; assumption.
  - apply grid_gaps; assumption.
  - apply slice_covered; assumption.
  - intros ks IR W. rewrite sent_value by exact IR. apply V, W.
Qed.
Lemma sampled_node x : sample_node bbox r size axis h0 x -> sampled_size size axis d s h0 r x = size_fh s x.
Proof.
  intros SN. destruct (node_index bbox r size axis h0 H0 BB RS x SN) as (ks & IR & ->). unfold sampled_size. fold bbox. rewrite interp_node; [apply sent_value, IR|apply grid_axes; assumption|exact IR].
Qed.
End Claims.

(** initial points of the rank lie in the region *)
Lemma initial_near bbox r size axis h0 q : length bbox = 2%nat \/ length bbox = 3%nat -> 0 < h0 -> Forall (fun b => fst b <= snd b) bbox -> (r < size)%nat ->
  In q (make_init_points bbox r size axis h0) -> near_slice bbox r size axis h0 q.
Proof.
  intros D Hh HF Hs H. unfold make_init_points in H. fold (rank_box bbox r size axis h0) in H.
  assert (dim23 (rank_box bbox r size axis h0)) as D1 by (unfold dim23; rewrite rank_box_len; exact D).
  split. { apply (in_grid h0 _ q D1) in H as (js & _ & L & _). rewrite L. apply rank_box_len. }
  intros k Hk. pose proof (grid_bounds h0 _ q k D1 Hh H ltac:(rewrite rank_box_len; exact Hk)) as B. rewrite rank_box_nth in B by exact Hk.
  rewrite Forall_forall in HF. specialize (HF _ (nth_In bbox (0,0) Hk)). unfold slice_lo, slice_hi. destruct (k =? axis)%nat; [|lra].
  rewrite span_snd in B by (try exact Hh; try exact HF; lia). destruct (span_start (nth k bbox (0,0)) size h0 Hh HF ltac:(lia) r) as [ST _]. unfold limit in *. lra.
Qed.

(** what rank 0 sends to rank r and rank r makes of it is this function: the size function passed in, sampled on the rank's grid *)
Theorem C116_message : forall d s size axis h0 r, sizing_in (local_grid_sizes (size_fh s) (pairs_of (full_bbox d s)) size axis h0 r) = sampled_size size axis d s h0 r.
Proof. reflexivity. Qed.
Print Assumptions C116_message.
(** Wherever the rank's points start (and 3 h0 below to 2 h0 above its slice), the size it uses lies between the sizes the user's function
    takes within h0 of the point: a constant is reproduced, a function that varies by at most e over that distance is met up to e. *)
Theorem C116_close : forall d s size axis r h0 x lo hi, let bbox := pairs_of (full_bbox d s) in
  0 < h0 -> Forall (fun b => fst b <= snd b) bbox -> (r < size)%nat -> near_slice bbox r size axis h0 x ->
  (forall y, within h0 x y -> lo <= size_fh s y <= hi) -> lo <= sampled_size size axis d s h0 r x <= hi.
Proof. intros d s size axis r h0 x lo hi bbox H B RS. apply sampled_near; assumption. Qed.
Print Assumptions C116_close.
Theorem C116_initial_points : forall d s size axis r h0 x lo hi, let bbox := pairs_of (full_bbox d s) in
  length bbox = 2%nat \/ length bbox = 3%nat -> 0 < h0 -> Forall (fun b => fst b <= snd b) bbox -> (r < size)%nat -> In x (make_init_points bbox r size axis h0) ->
  (forall y, within h0 x y -> lo <= size_fh s y <= hi) -> lo <= sampled_size size axis d s h0 r x <= hi.
Proof. intros d s size axis r h0 x lo hi bbox L H B RS I. apply sampled_near; try assumption. apply initial_near; assumption. Qed.
Print Assumptions C116_initial_points.
(** at the sampling nodes it is the user's size *)
Theorem C116_exact_at_nodes : forall d s size axis r h0 x, let bbox := pairs_of (full_bbox d s) in
  0 < h0 -> Forall (fun b => fst b <= snd b) bbox -> (r < size)%nat -> sample_node bbox r size axis h0 x -> sampled_size size axis d s h0 r x = size_fh s x.
Proof. intros d s size axis r h0 x bbox H B RS. apply sampled_node; assumption. Qed.
Print Assumptions C116_exact_at_nodes.
(** a gradation bound g (per coordinate) gives an error of at most g * dim * h0 *)
Fixpoint l1_dist (x y : list R) : R := match x, y with a :: x', b :: y' => Rabs (a - b) + l1_dist x' y' | _, _ => 0 end.
Lemma within_l1 w x y : within w x y -> l1_dist x y <= INR (length x) * w.
Proof. induction 1 as [|a b x y A F IH]; [cbn; lra|]. cbn [l1_dist length]. rewrite S_INR. lra. Qed.
Theorem C116_gradation : forall d s size axis r h0 x g, let bbox := pairs_of (full_bbox d s) in
  0 < h0 -> Forall (fun b => fst b <= snd b) bbox -> (r < size)%nat -> near_slice bbox r size axis h0 x -> 0 <= g ->
  (forall y, length y = length x -> Rabs (size_fh s y - size_fh s x) <= g * l1_dist x y) ->
  Rabs (sampled_size size axis d s h0 r x - size_fh s x) <= g * (INR (length bbox) * h0).
Proof.
  intros d s size axis r h0 x g bbox H B RS NS G V. apply Rabs_le.
  assert (size_fh s x - g * (INR (length bbox) * h0) <= sampled_size size axis d s h0 r x <= size_fh s x + g * (INR (length bbox) * h0)) as K; [|lra].
  apply sampled_near; try assumption. intros y W. pose proof (within_l1 _ _ _ W) as L. assert (length y = length x) as E by (clear - W; induction W; cbn; congruence).
  specialize (V y E). apply Rabs_le_inv in V. rewrite (proj1 NS) in L. fold bbox in L. assert (g * l1_dist x y <= g * (INR (length bbox) * h0)) by (apply Rmult_le_compat_l; assumption). lra.
Qed.
Print Assumptions C116_gradation.

(** ---- further out than that the sizes are extrapolated and need not even be positive: two ranks on [0,20] x [0,1], h0 = 1, sizes 1 and 2 only;
    rank 0 samples up to 12, and at the point (20, 0) of the domain it would use size -7 ---- *)
Definition step_size (x : list R) : R := if Rltb (nth 0 x 0) (23 / 2) then 2 else 1.
Definition long_box : list R := [0; 20; 0; 1].
Definition step_arg : size_arg := SObject long_box 1 step_size.
Definition long_dom : dom_arg := DFunction (fun _ => -1) long_box.
Lemma long_full : full_bbox long_dom step_arg = long_box.
Proof. unfold full_bbox, long_dom, step_arg, long_box. cbn [size_bbox dom_bbox minmax_box negb]. rewrite !Rmin_left, !Rmax_left by lra. reflexivity. Qed.
Theorem C116_far_refuted : (forall x, step_size x = 1 \/ step_size x = 2) /\ sampled_size 2 0 long_dom step_arg 1 0 [20; 0] = -7.
Proof.
  split; [intros x; unfold step_size; destruct (Rltb _ _); auto|]. unfold sampled_size. rewrite long_full. change (pairs_of long_box) with [(0, 20); (0, 1)].
  set (bb := [(0, 20); (0, 1)]). assert (Forall (fun b => fst b <= snd b) bb) as BB by (unfold bb; repeat (apply Forall_cons; [cbn; lra|]); apply Forall_nil).
  set (vs := sizing_vectors bb 0 2 0 1). assert (vs = [vec bb 0 2 0 1 0; vec bb 0 2 0 1 1]) as EV by apply vectors.
  pose proof (grid_axes bb 0 2 0 1 ltac:(lra) BB ltac:(lia)) as AX. fold vs in AX. rewrite EV in AX. apply Forall_cons_iff in AX as (A0 & AX). apply Forall_cons_iff in AX as (A1 & _).
  assert (slice_lo bb 0 2 0 0 = 0) as L0 by (unfold slice_lo; cbn; lra). assert (slice_hi bb 0 2 0 0 = 10) as L1 by (unfold slice_hi; cbn; lra).
  assert (length (vec bb 0 2 0 1 0) = 16%nat) as LN.
  { rewrite vec_len. rewrite L0, L1. unfold n_nodes. replace ((10 + 3 * 1 - (0 - 3 * 1)) / 1) with 16 by lra. rewrite (Zceil_imp 16) by (rewrite minus_IZR; lra). reflexivity. }
  assert (N11 : nth 14 (vec bb 0 2 0 1 0) 0 = 11) by (rewrite vec_nth by (rewrite LN; lia); rewrite L0; unfold node; cbn; lra).
  assert (N12 : nth 15 (vec bb 0 2 0 1 0) 0 = 12) by (rewrite vec_nth by (rewrite LN; lia); rewrite L0; unfold node; cbn; lra).
  assert (cell_of (vec bb 0 2 0 1 0) 20 = 14%nat) as EC.
  { pose proof (cell_range _ A0 20) as R. rewrite LN in R. destruct (Nat.eq_dec (cell_of (vec bb 0 2 0 1 0) 20) 14) as [E|NE]; [exact E|]. exfalso.
    pose proof (cell_upper _ A0 20) as U. rewrite LN in U. specialize (U ltac:(lia)). rewrite vec_nth in U by (rewrite LN; lia). rewrite L0 in U. unfold node in U.
    assert (INR (S (cell_of (vec bb 0 2 0 1 0) 20)) <= INR 15) as W by (apply le_INR; lia). replace (INR 15) with 15 in W by (cbn; lra). lra. }
  rewrite EV, interp_cons, EC. unfold lerp, weight. rewrite N11, N12.
  assert (forall i c, (i < 16)%nat -> (forall k, step_size (nth i (vec bb 0 2 0 1 0) 0 :: k) = c) ->
     interp [vec bb 0 2 0 1 1] (fun k => nth (flat_index [vec bb 0 2 0 1 0; vec bb 0 2 0 1 1] (i :: k)) (map (size_fh step_arg) (grid_of [vec bb 0 2 0 1 0; vec bb 0 2 0 1 1])) 0) [0] = c) as IN.
  { intros i c I C. assert (c <= interp [vec bb 0 2 0 1 1] (fun k => nth (flat_index [vec bb 0 2 0 1 0; vec bb 0 2 0 1 1] (i :: k)) (map (size_fh step_arg) (grid_of [vec bb 0 2 0 1 0; vec bb 0 2 0 1 1])) 0) [0] <= c) as Q; [|lra].
    apply interp_bounds.
    - apply Forall_cons; [exact A1|apply Forall_nil].
    - constructor; [|constructor]. pose proof (vec_many bb 0 2 0 1 ltac:(lra) BB ltac:(lia) 1 ltac:(cbn; lia)) as M. rewrite !vec_nth by lia. rewrite vec_len.
      assert (slice_lo bb 0 2 0 1 = 0) as K0 by (unfold slice_lo; cbn; lra). assert (slice_hi bb 0 2 0 1 = 1) as K1 by (unfold slice_hi; cbn; lra). rewrite K0, K1.
      pose proof (last_bounds (0 - 3 * 1) (1 + 3 * 1) 1 ltac:(lra) ltac:(lra)) as LB. unfold node at 1. cbn [INR]. lra.
    - intros ks IR. rewrite sent_value by (constructor; [rewrite LN; exact I|exact IR]). cbn [node_at size_fh step_arg]. rewrite C. lra. }
  rewrite (IN 14%nat 2), (IN 15%nat 1); [lra|lia| |lia|].
  - intros k. unfold step_size. cbn [nth]. rewrite N12. rewrite (proj2 (Rltb_false 12 (23/2))) by lra. reflexivity.
  - intros k. unfold step_size. cbn [nth]. rewrite N11. rewrite (proj2 (Rltb_true 11 (23/2))) by lra. reflexivity.
Qed.
Print Assumptions C116_far_refuted.
(** the hypotheses are met: rank 1 of two on [0,20] x [0,1] with the same sizes; near (15, 0) the user's size is 1 and so is the rank's *)
Example C116_case : near_slice (pairs_of (full_bbox long_dom step_arg)) 1 2 0 1 [15; 0] /\ sampled_size 2 0 long_dom step_arg 1 1 [15; 0] = 1.
Proof.
  assert (near_slice (pairs_of (full_bbox long_dom step_arg)) 1 2 0 1 [15; 0]) as N.
  { rewrite long_full. split; [reflexivity|]. intros i I. unfold slice_lo, slice_hi. destruct i as [|[|i]]; cbn in *; try lia; lra. }
  split; [exact N|].
  assert (1 <= sampled_size 2 0 long_dom step_arg 1 1 [15; 0] <= 1) as K; [|lra].
  apply C116_close; [lra| |lia|exact N|].
  - rewrite long_full. repeat (apply Forall_cons; [cbn; lra|]). apply Forall_nil.
  - intros y W. inversion W as [|? b ? ? A1 A2]; subst. apply Rabs_le_inv in A1. cbn [size_fh step_arg]. unfold step_size. cbn [nth]. rewrite (proj2 (Rltb_false b (23/2))) by lra. lra.
Qed.
