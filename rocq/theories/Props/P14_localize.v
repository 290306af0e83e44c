(** C79: user-supplied points are distributed to the ranks, or all ranks but rank 0 wait forever.  C80: what the ranks get with axis=2.
    A run is any interleaving of the ranks; the message layer may buffer any sends or none. *)
From Coq Require Import List ZArith Reals Bool Arith Lia Lra Sorted.
From Verif Require Import Model.Base Model.MPI Model.InitGrid Model.Blocker Model.Localize Proofs.Choreo Proofs.ListAux Proofs.MeshAux Proofs.WhereToProofs Proofs.BlockerProofs Proofs.LocalizeProofs Props.P13_blocks.
Import ListNotations.
Local Open Scope nat_scope.

(** ---- C79 ---- *)
(** as many blocks as ranks (or more): whatever the schedule, the distribution cannot get stuck, is over after a bounded number of steps, and then
    rank r > 0 holds its local sizing function, block r and all extents (rank 0 keeps block 0) *)
Theorem C79_distribution : forall fh bbox h0 size axis blocks extents, 2 <= size -> size <= length blocks ->
  forall n s, run n (start (user_defined_points (local_sizing fh bbox size axis h0) size (Ok (blocks, extents)))) s ->
  n <= 2 * ((size - 1) * (size + 1)) /\ (~ finished s -> exists s', step false s s') /\
  (finished s -> (forall p q, chan s p q = []) /\ forall r, 0 < r < size ->
     local_result size r (log s r) =
      (Some (LSizing (sizing_vectors bbox r size axis h0) (map fh (grid_of (sizing_vectors bbox r size axis h0)))), (Some (LBlock (nth r blocks [])), Some (LExtents extents)))).
Proof.
  intros fh bbox h0 size axis blocks extents S2 LB n s Rn.
  destruct (choreography _ _ _ (loc_distinct (local_sizing fh bbox size axis h0) size blocks extents S2 LB) (loc_project (local_sizing fh bbox size axis h0) size blocks extents S2 LB) n s Rn) as [L [P C]].
  rewrite loc_len in L by assumption. split; [exact L|]. split; [exact P|]. intros F. destruct (C F) as [CH LG]. split; [exact CH|]. intros r Hr.
  apply (loc_result (local_sizing fh bbox size axis h0) size blocks extents S2 LB); [lia|lia|apply LG].
Qed.
Print Assumptions C79_distribution.
(** together with the decomposition: for axis 0 or 1 and no empty slab, every user point is on some rank after the distribution, and only user points are *)
(** the values sent with the vectors: where an array in C order has the entry (k1, k2, ...) there is the size at the point (v1[k1], v2[k2], ...) *)
Fixpoint c_order (shape ks : list nat) : nat :=
  match shape, ks with n :: shape', k :: ks' => k * fold_right Nat.mul 1 shape' + c_order shape' ks' | _, _ => 0 end.
Fixpoint entry_point (vecs : list (list R)) (ks : list nat) : list R :=
  match vecs, ks with v :: vecs', k :: ks' => nth k v 0%R :: entry_point vecs' ks' | _, _ => [] end.
Lemma grid_of_length vecs : length (grid_of vecs) = fold_right Nat.mul 1 (map (@length R) vecs).
Proof.
  induction vecs as [|v vecs IH]; [reflexivity|]. cbn [grid_of map fold_right]. rewrite <- IH. clear IH. generalize (grid_of vecs). intros g.
  induction v as [|x v IH]; [reflexivity|]. cbn [flat_map length]. rewrite app_length, map_length, IH. lia.
Qed.
Lemma grid_of_nth vecs : forall ks, Forall2 (fun k v => k < length v) ks vecs ->
  c_order (map (@length R) vecs) ks < length (grid_of vecs) /\ nth (c_order (map (@length R) vecs) ks) (grid_of vecs) [] = entry_point vecs ks.
Proof.
  induction vecs as [|v vecs IH]; intros ks F; [inversion F; subst; cbn; split; [lia|reflexivity]|]. inversion F as [|k v' ks' vecs' K F' E1 E2]; subst.
  destruct (IH ks' F') as [I1 I2]. pose proof (grid_of_length (v :: vecs)) as G. cbn [map fold_right] in G. pose proof (grid_of_length vecs) as G'.
  cbn [map c_order entry_point]. rewrite <- G' in *. set (c := c_order _ ks') in *. clearbody c. clear G F F' IH. cbn [grid_of]. set (g := grid_of vecs) in *. clearbody g. clear G'.
  rewrite <- I2. clear I2. revert k K. induction v as [|x v IHv]; intros k K; [cbn in K; lia|]. cbn [flat_map]. rewrite app_length, map_length. destruct k as [|k].
  - cbn [Nat.mul plus]. split; [lia|]. rewrite app_nth1 by (rewrite map_length; exact I1). cbn [nth]. rewrite (nth_indep _ [] (x :: [])) by (rewrite map_length; exact I1). apply map_nth.
  - cbn [length] in K. destruct (IHv k ltac:(lia)) as [J1 J2]. cbn [Nat.mul]. split; [lia|]. rewrite app_nth2 by (rewrite map_length; lia). rewrite map_length.
    replace (length g + k * length g + c - length g) with (k * length g + c) by lia. exact J2.
Qed.
Theorem C79_sizes : forall fh bbox h0 size axis r ks, Forall2 (fun k v => k < length v) ks (sizing_vectors bbox r size axis h0) ->
  exists vecs vals, local_sizing fh bbox size axis h0 r = LSizing vecs vals /\ vecs = sizing_vectors bbox r size axis h0 /\
   length vals = fold_right Nat.mul 1 (map (@length R) vecs) /\
   c_order (map (@length R) vecs) ks < length vals /\ nth (c_order (map (@length R) vecs) ks) vals 0%R = fh (entry_point vecs ks).
Proof.
  intros fh bbox h0 size axis r ks F. destruct (grid_of_nth _ ks F) as [G1 G2]. unfold local_sizing. cbv zeta. do 2 eexists. split; [reflexivity|]. split; [reflexivity|].
  split; [rewrite map_length; apply grid_of_length|]. split; [rewrite map_length; exact G1|]. rewrite (nth_indep _ 0%R (fh [])) by (rewrite map_length; exact G1). rewrite map_nth, G2. reflexivity.
Qed.
Print Assumptions C79_sizes.

Theorem C79_every_point_owned : forall fh bbox h0 size axis dim points blocks extents, 2 <= size -> dim = 2 \/ dim = 3 -> axis = 0 \/ axis = 1 -> Forall (fun p => length p = dim) points ->
  blocker (fun x => x) dim points size axis = Ok (blocks, extents) -> length blocks = size ->
  forall n s, run n (start (user_defined_points (local_sizing fh bbox size axis h0) size (blocker (fun x => x) dim points size axis))) s -> finished s ->
  exists own : nat -> list (list R), own 0 = nth 0 blocks [] /\ (forall r, 0 < r < size -> fst (snd (local_result size r (log s r))) = Some (LBlock (own r))) /\
   forall p, In p points <-> exists r, r < size /\ In p (own r).
Proof.
  intros fh bbox h0 size axis dim points blocks extents S2 D A F E LB n s Rn FI. rewrite E in Rn.
  destruct (C79_distribution fh bbox h0 size axis blocks extents S2 ltac:(lia) n s Rn) as [_ [_ C]]. destruct (C FI) as [_ H].
  exists (fun r => nth r blocks []). split; [reflexivity|]. split; [intros r Hr; rewrite (H r Hr); reflexivity|].
  assert (1 < length points / size) as Q.
  { unfold blocker in E. destruct ((dim <? 2) || (3 <? dim)); [discriminate|]. destruct (size =? 0); [discriminate|]. destruct (1 <? length points / size) eqn:X; [apply Nat.ltb_lt, X|discriminate]. }
  destruct (C62_cover dim points size axis blocks extents D A ltac:(lia) Q F E) as (_ & COV & _). intros p. rewrite COV. split.
  - intros (b & Hb & Hp). destruct (In_nth _ _ [] Hb) as (k & Lk & Ek). exists k. split; [lia|]. rewrite Ek. exact Hp.
  - intros (r & Hr & Hp). exists (nth r blocks []). split; [apply nth_In; lia|exact Hp].
Qed.
Print Assumptions C79_every_point_owned.
(** fewer blocks than ranks (a slab without points, see C62), or blocker raised: under no schedule does any rank but rank 0 ever get through *)
Theorem C79_hangs : forall fh bbox h0 size axis blk n s r,
  (forall blocks extents, blk = Ok (blocks, extents) -> length blocks < size) ->
  run n (start (user_defined_points (local_sizing fh bbox size axis h0) size blk)) s -> 0 < r < size -> prog s r <> [].
Proof.
  intros fh bbox h0 size axis blk n s r H Rn Hr. destruct blk as [[blocks extents]|e].
  - apply (starved _ _ _ _ 0 r Rn). apply few_starve; [lia|lia|]. exact (H _ _ eq_refl).
  - apply (starved _ _ _ _ 0 r Rn). apply error_starve; [lia|lia|]. discriminate.
Qed.
Print Assumptions C79_hangs.
(** three ranks, points at two heights only: axis 0 gives two blocks and the ranks hang; two ranks: it works *)
Example C79_case : (exists blocks extents, blocker (fun x => x) 2 [[0;0];[1;0];[0;1];[1;1];[2;0];[2;1]]%R 3 0 = Ok (blocks, extents) /\ length blocks < 3) /\
  (exists blocks extents, blocker (fun x => x) 2 [[0;0];[1;0];[0;1];[1;1]]%R 2 0 = Ok (blocks, extents) /\ length blocks = 2 /\
    exists n s, run n (start (user_defined_points (local_sizing (fun _ => 1%R) [(0,1);(0,1)]%R 2 0 1) 2 (Ok (blocks, extents)))) s /\ finished s).
Proof.
  destruct C62_case as [(b0 & b1 & e & E & _ & _) (c0 & c1 & e' & E')]. split.
  - exists [c0; c1], e'. split; [exact E'|cbn; lia].
  - exists [b0; b1], e. split; [exact E|]. split; [reflexivity|].
    apply (choreography_completes _ _ _ (loc_distinct _ 2 [b0; b1] e ltac:(lia) ltac:(cbn; lia)) (loc_project (local_sizing (fun _ => 1%R) [(0,1);(0,1)]%R 2 0 1) 2 [b0; b1] e ltac:(lia) ltac:(cbn; lia)) 0 _ (run_nil _)).
Qed.

(** three values along the first axis, two along the second: the last entry *)
Example C79_sizes_case : Forall2 (fun k v => k < length v) [2; 1] [[0; 1; 2]; [5; 7]]%R /\ c_order (map (@length R) [[0; 1; 2]; [5; 7]]%R) [2; 1] = 5 /\
  entry_point [[0; 1; 2]; [5; 7]]%R [2; 1] = [2; 7]%R.
Proof. split; [repeat constructor|]. split; reflexivity. Qed.

(** ---- C80: axis=2: the first blocks are the non-empty slabs along z, so the ranks hold every point; block number r beyond these slabs repeats points of lower ranks ---- *)
Theorem C80_axis2 : forall points num_blocks, (0 < num_blocks)%nat -> (1 < length points / num_blocks)%nat -> Forall (fun p => length p = 3%nat) points ->
  exists blocks extents lo w ks, blocker (fun x => x) 3 points num_blocks 2 = Ok (blocks, extents) /\ (0 < w)%R /\
   (forall p, In p points -> (lo < nth 2 p 0 < lo + INR num_blocks * w)%R) /\
   StronglySorted lt ks /\ (forall k, In k ks <-> k < num_blocks /\ exists p, In p points /\ (lo + INR k * w <= nth 2 p 0 <= lo + INR (S k) * w)%R) /\
   length ks <= length blocks /\
   (forall i, i < length ks -> forall p, In p (nth i blocks []) <-> In p points /\ (lo + INR (nth i ks 0%nat) * w <= nth 2 p 0 <= lo + INR (S (nth i ks 0%nat)) * w)%R) /\
   (forall p, In p points -> exists i, i < length ks /\ In p (nth i blocks [])) /\
   forall i p, length ks <= i -> In p (nth i blocks []) -> exists j, j < i /\ In p (nth j blocks []).
Proof.
  intros points nb N C F. assert (points <> []) as NE by (intros ->; cbn in C; rewrite Nat.div_0_l in C; lia).
  destruct (slab_width points 2 nb N NE) as (w & W & EW). destruct (nonempty_slabs (slab points 2 nb) nb) as (ks & EB & SK & IK).
  destruct (axis2_prefix points nb N C F) as (rest & e & E & SUB). rewrite EB in E.
  assert (forall k, In k ks <-> k < nb /\ exists p, In p points /\ (slab_lo points 2 nb 0 + INR k * w <= nth 2 p 0 <= slab_lo points 2 nb 0 + INR (S k) * w)%R) as KS.
  { intros k. rewrite IK. split; intros [L H]; (split; [exact L|]).
    - destruct (slab points 2 nb k) as [|p t] eqn:X; [congruence|]. exists p. assert (In p (slab points 2 nb k)) as I by (rewrite X; left; reflexivity).
      apply in_slab_spec in I. rewrite <- !EW. exact I.
    - destruct H as (p & I & H). rewrite <- !EW in H. intros Z. assert (In p (slab points 2 nb k)) as X by (apply in_slab_spec; split; assumption). rewrite Z in X. destruct X. }
  assert (forall p, In p points -> exists i, i < length ks /\ In p (nth i (map (slab points 2 nb) ks ++ rest) [])) as COV.
  { intros p Hp. destruct (in_some_slab points 2 nb p N Hp) as (k & Hk & Ip). assert (In k ks) as Ik by (apply IK; split; [exact Hk|]; intros Z; rewrite Z in Ip; destruct Ip).
    destruct (In_nth _ _ 0 Ik) as (i & Li & Ei). exists i. split; [exact Li|]. rewrite app_nth1 by (rewrite map_length; exact Li). rewrite (nth_map' _ _ i [] 0) by exact Li. rewrite Ei. exact Ip. }
  exists (map (slab points 2 nb) ks ++ rest), e, (slab_lo points 2 nb 0), w, ks. split; [exact E|]. split; [exact W|]. split.
  { intros p Hp. rewrite <- EW. apply slab_ends; assumption. }
  split; [exact SK|]. split; [exact KS|]. split; [rewrite app_length, map_length; lia|]. split.
  { intros i Li p. rewrite app_nth1 by (rewrite map_length; exact Li). rewrite (nth_map' _ _ i [] 0) by exact Li. rewrite <- !EW. apply in_slab_spec. }
  split; [exact COV|]. intros i p Li Hp. assert (In p points) as Ip.
  { destruct (Nat.lt_ge_cases i (length (map (slab points 2 nb) ks ++ rest))) as [L|L]; [|rewrite nth_overflow in Hp by exact L; destruct Hp].
    rewrite app_nth2 in Hp by (rewrite map_length; exact Li). refine (SUB _ p _ Hp). apply nth_In. rewrite app_length, map_length in *. lia. }
  destruct (COV p Ip) as (j & Lj & Hj). exists j. split; [lia|exact Hj].
Qed.
Print Assumptions C80_axis2.
Example C80_case : 1 < length [[0;0;0];[0;1;0];[0;0;1];[0;1;1]]%R / 2 /\ Forall (fun q => length q = 3) [[0;0;0];[0;1;0];[0;0;1];[0;1;1]]%R.
Proof. split; [cbn; lia|]. repeat (apply Forall_cons; [reflexivity|]); apply Forall_nil. Qed.
