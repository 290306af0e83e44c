(** C62-C64, C78: decomposition of user-supplied points into blocks.  Exact arithmetic except for C78. *)
From Coq Require Import List ZArith Reals Bool Arith Lia Lra Sorted.
From Flocq Require Import Core.
From Verif Require Import Model.Base Model.Blocker Model.InitGrid Proofs.ListAux Proofs.MeshAux Proofs.WhereToProofs Proofs.BlockerProofs Proofs.BlockerFloat.
Import ListNotations.
Local Open Scope R_scope.

(** e is the tight bounding box of the points of b: lower corner, then upper corner *)
Definition tight_box (dim : nat) (b : list (list R)) (e : list R) : Prop :=
  length e = (2 * dim)%nat /\ forall k, (k < dim)%nat ->
   (forall p, In p b -> nth k e 0 <= nth k p 0 <= nth (dim + k) e 0) /\ (exists p, In p b /\ nth k p 0 = nth k e 0) /\ exists p, In p b /\ nth k p 0 = nth (dim + k) e 0.
Lemma extent_tight dim b : b <> [] -> tight_box dim b (extent dim b).
Proof.
  intros NE. unfold tight_box, extent. rewrite app_length, !map_length, seq_length. split; [lia|]. intros k Hk.
  rewrite app_nth1 by (rewrite map_length, seq_length; exact Hk). rewrite app_nth2 by (rewrite map_length, seq_length; lia). rewrite map_length, seq_length. replace (dim + k - dim)%nat with k by lia.
  rewrite !(nth_map' _ _ k 0 0%nat) by (rewrite seq_length; exact Hk). rewrite seq_nth by exact Hk. cbn [Nat.add].
  split; [intros p Hp; split; [apply col_min|apply col_max]; exact Hp|]. split; [apply col_min_at|apply col_max_at]; exact NE.
Qed.

(** ---- C62: axis 0 cuts coordinate 1, axis 1 cuts coordinate 0 ---- *)
Theorem C62_blocks : forall dim points num_blocks axis, (dim = 2 \/ dim = 3)%nat -> (axis = 0 \/ axis = 1)%nat -> (0 < num_blocks)%nat -> (1 < length points / num_blocks)%nat ->
  Forall (fun p => length p = dim) points ->
  let c := if (axis =? 0)%nat then 1%nat else 0%nat in
  exists blocks extents lo w ks, blocker (fun x => x) dim points num_blocks axis = Ok (blocks, extents) /\ 0 < w /\
   (* slab number k is the closed interval [lo + k w, lo + (k+1) w]; together they cover all points *)
   (forall p, In p points -> lo < nth c p 0 < lo + INR num_blocks * w) /\
   (* the blocks are, in this order, the slabs that contain a point *)
   length blocks = length ks /\ StronglySorted lt ks /\
   (forall k, In k ks <-> (k < num_blocks)%nat /\ exists p, In p points /\ lo + INR k * w <= nth c p 0 <= lo + INR (S k) * w) /\
   (forall i, (i < length blocks)%nat -> let k := nth i ks 0%nat in
      (exists f, nth i blocks [] = filter f points) /\ forall p, In p (nth i blocks []) <-> In p points /\ lo + INR k * w <= nth c p 0 <= lo + INR (S k) * w) /\
   (* extents *)
   length extents = length blocks /\ forall i, (i < length blocks)%nat -> tight_box dim (nth i blocks []) (nth i extents []).
Proof.
  intros dim points nb axis D A N C F c.
  assert (c = split_coord axis) as Ec by (unfold c; destruct A as [-> | ->]; reflexivity). rewrite Ec. clear c Ec. set (c := split_coord axis).
  assert (points <> []) as NE by (intros ->; cbn in C; rewrite Nat.div_0_l in C; lia).
  destruct (slab_width points c nb N NE) as (w & W & EW). destruct (nonempty_slabs (slab points c nb) nb) as (ks & EB & SK & IK).
  pose proof (blocker_slabs dim points nb axis D A N C F) as E. cbv zeta in E. fold c in E. rewrite EB in E.
  exists (map (slab points c nb) ks), (map (extent dim) (map (slab points c nb) ks)), (slab_lo points c nb 0), w, ks.
  split; [exact E|]. split; [exact W|]. split.
  { intros p Hp. rewrite <- EW. apply slab_ends; assumption. }
  split; [apply map_length|]. split; [exact SK|]. split.
  { intros k. rewrite IK. split; intros [L H]; (split; [exact L|]).
    - destruct (slab points c nb k) as [|p t] eqn:S; [congruence|]. exists p. assert (In p (slab points c nb k)) as I by (rewrite S; left; reflexivity).
      apply in_slab_spec in I. rewrite <- !EW. exact I.
    - destruct H as (p & I & H). rewrite <- !EW in H. intros Z. assert (In p (slab points c nb k)) as X by (apply in_slab_spec; split; assumption). rewrite Z in X. destruct X. }
  split.
  { intros i Hi k. rewrite map_length in Hi. rewrite (nth_map' _ _ i [] 0%nat) by exact Hi. split; [exists (in_slab points c nb k); reflexivity|]. intros p. rewrite <- !EW. apply in_slab_spec. }
  split; [rewrite map_length; reflexivity|]. intros i Hi. rewrite map_length in Hi. rewrite (nth_map' (extent dim) _ i [] []) by (rewrite map_length; exact Hi). apply extent_tight.
  rewrite (nth_map' _ _ i [] 0%nat) by exact Hi. apply (proj1 (IK _)). apply nth_In. exact Hi.
Qed.
Print Assumptions C62_blocks.
(** consequences: coverage, shared points only on common faces of neighbouring blocks, order *)
Theorem C62_cover : forall dim points num_blocks axis blocks extents, (dim = 2 \/ dim = 3)%nat -> (axis = 0 \/ axis = 1)%nat -> (0 < num_blocks)%nat -> (1 < length points / num_blocks)%nat ->
  Forall (fun p => length p = dim) points -> blocker (fun x => x) dim points num_blocks axis = Ok (blocks, extents) ->
  let c := if (axis =? 0)%nat then 1%nat else 0%nat in
  (length blocks <= num_blocks)%nat /\ (forall p, In p points <-> exists b, In b blocks /\ In p b) /\
  forall i j, (i < j < length blocks)%nat ->
    (forall p q, In p (nth i blocks []) -> In q (nth j blocks []) -> nth c p 0 <= nth c q 0) /\
    (forall p, In p (nth i blocks []) -> In p (nth j blocks []) -> j = S i /\ (forall q, In q (nth i blocks []) -> nth c q 0 <= nth c p 0) /\ (forall q, In q (nth j blocks []) -> nth c p 0 <= nth c q 0)).
Proof.
  intros dim points nb axis blocks extents D A N C F E c.
  assert (c = split_coord axis) as Ec by (unfold c; destruct A as [-> | ->]; reflexivity). rewrite Ec. clear c Ec. set (c := split_coord axis).
  destruct (nonempty_slabs (slab points c nb) nb) as (ks & EB & SK & IK).
  pose proof (blocker_slabs dim points nb axis D A N C F) as E'. cbv zeta in E'. fold c in E'. rewrite EB in E'. rewrite E' in E. injection E as <- _. clear E'.
  assert (forall i j, (i < j < length ks)%nat -> (nth i ks 0 < nth j ks 0)%nat) as INC.
  { clear - SK. induction SK as [|a l S IH H]; [cbn; lia|]. intros [|i] [|j] [L1 L2]; cbn in *; try lia; [|apply IH; lia].
    rewrite Forall_forall in H. apply H, nth_In. lia. }
  rewrite map_length. split.
  { assert (NoDup ks) as ND. { clear - SK. induction SK as [|a l S IH H]; constructor; [|exact IH]. intros I. rewrite Forall_forall in H. specialize (H a I). lia. }
    rewrite <- (seq_length nb 0). apply NoDup_incl_length; [exact ND|]. intros k Hk. apply IK in Hk. apply in_seq. lia. }
  split.
  { intros p. split.
    - intros Hp. destruct (in_some_slab points c nb p N Hp) as (k & Hk & Ip). exists (slab points c nb k). split; [|exact Ip]. apply in_map. apply IK. split; [exact Hk|]. intros Z. rewrite Z in Ip. destruct Ip.
    - intros (b & Hb & Ip). apply in_map_iff in Hb. destruct Hb as (k & <- & _). apply in_slab_spec in Ip. apply Ip. }
  intros i j Hij. pose proof (INC i j Hij) as L. rewrite !(nth_map' _ _ _ [] 0%nat) by lia. split.
  - intros p q Hp Hq. exact (slabs_ordered points c nb p q _ _ N Hp Hq L).
  - intros p Hp Hq. destruct (two_slabs points c nb p _ _ N Hp Hq L) as [EK EP]. split; [|split].
    + destruct (Nat.eq_dec j (S i)) as [X|X]; [exact X|]. exfalso. pose proof (INC i (S i) ltac:(lia)). pose proof (INC (S i) j ltac:(lia)). lia.
    + intros q Hq'. apply in_slab_spec in Hq'. rewrite EP, EK. apply Hq'.
    + intros q Hq'. apply in_slab_spec in Hq'. rewrite EP. apply Hq'.
Qed.
Print Assumptions C62_cover.
(** four corners of a square, two blocks; a square with all points at two heights and three blocks gives only two *)
Example C62_case : (exists b0 b1 e, blocker (fun x => x) 2 [[0;0];[1;0];[0;1];[1;1]] 2 0 = Ok ([b0; b1], e) /\ b0 = [[0;0];[1;0]] /\ b1 = [[0;1];[1;1]]) /\
  exists b0 b1 e, blocker (fun x => x) 2 [[0;0];[1;0];[0;1];[1;1];[2;0];[2;1]] 3 0 = Ok ([b0; b1], e).
Proof.
  pose proof eps_pos as EP. assert (eps < 1/10) as ES by (rewrite eps_val; lra). split.
  - eexists _, _, _. rewrite (blocker_slabs 2 _ 2 0); [|left; reflexivity|left; reflexivity|lia|cbn; lia|repeat (apply Forall_cons; [reflexivity|]); apply Forall_nil].
    cbn [split_coord seq map]. unfold slab, in_slab, slab_lo. cbn [column map nth].
    assert (min_list [0;0;1;1] = 0) as -> by (cbn; unfold Rmin; repeat destruct Rle_dec; lra). assert (max_list [0;0;1;1] = 1) as -> by (cbn; unfold Rmax; repeat destruct Rle_dec; lra). cbn [filter INR nth].
    repeat match goal with |- context [Rleb ?a ?b] => first [rewrite (proj2 (Rleb_true a b)) by lra | rewrite (proj2 (Rleb_false a b)) by lra] end. cbn. auto.
  - eexists _, _, _. rewrite (blocker_slabs 2 _ 3 0); [|left; reflexivity|left; reflexivity|lia|cbn; lia|repeat (apply Forall_cons; [reflexivity|]); apply Forall_nil].
    cbn [split_coord seq map]. unfold slab, in_slab, slab_lo. cbn [column map nth].
    assert (min_list [0;0;1;1;0;1] = 0) as -> by (cbn; unfold Rmin; repeat destruct Rle_dec; lra). assert (max_list [0;0;1;1;0;1] = 1) as -> by (cbn; unfold Rmax; repeat destruct Rle_dec; lra). cbn [filter INR nth].
    repeat match goal with |- context [Rleb ?a ?b] => first [rewrite (proj2 (Rleb_true a b)) by lra | rewrite (proj2 (Rleb_false a b)) by lra] end. cbn. reflexivity.
Qed.

(** ---- C63 ---- *)
Definition holds (p : list R) (b : list (list R)) : bool := if in_dec (list_eq_dec Req_EM_T) p b then true else false.
Lemma count_flat {A B} (g : B -> bool) (F : A -> B) (H : R -> list A) ys : (forall y, In y ys -> exists l, In l (H y) /\ g (F l) = true) ->
  (length ys <= length (filter g (map F (flat_map H ys))))%nat.
Proof.
  induction ys as [|y ys IH]; intros X; [cbn; lia|]. cbn [flat_map length]. rewrite map_app, filter_app, app_length.
  specialize (IH (fun z I => X z (or_intror I))). destruct (X y (or_introl eq_refl)) as (l & I & G).
  assert (In (F l) (filter g (map F (H y)))) as J by (apply filter_In; split; [apply in_map, I|exact G]). destruct (filter g (map F (H y))); [destruct J|]. cbn [length]. lia.
Qed.
(** with axis 2, a point in the last of num_blocks equal slices along y is in at least num_blocks of the blocks *)
Theorem C63_duplicates : forall points num_blocks blocks extents p lo hi, (0 < num_blocks)%nat -> Forall (fun q => length q = 3%nat) points ->
  blocker (fun x => x) 3 points num_blocks 2 = Ok (blocks, extents) ->
  (forall q, In q points -> lo <= nth 1 q 0 <= hi) -> (exists q, In q points /\ nth 1 q 0 = lo) -> (exists q, In q points /\ nth 1 q 0 = hi) ->
  In p points -> lo - eps + INR (num_blocks - 1) * ((hi - lo + 2 * eps) / INR num_blocks) <= nth 1 p 0 ->
  (num_blocks <= length (filter (holds p) blocks))%nat.
Proof.
  intros points nb blocks extents p lo hi N F E HB (ql & Il & El) (qh & Ih & Eh) Ip TOP.
  assert (min_list (column 1 points) = lo) as EL by (apply Rle_antisym; [rewrite <- El; apply col_min, Il|destruct (col_min_at 1 points) as (q & I & <-); [destruct points; [destruct Ip|discriminate]|apply HB, I]]).
  assert (max_list (column 1 points) = hi) as EH by (apply Rle_antisym; [destruct (col_max_at 1 points) as (q & I & <-); [destruct points; [destruct Ip|discriminate]|apply HB, I]|rewrite <- Eh; apply col_max, Ih]).
  assert (0 < INR nb) as NP by (apply lt_0_INR; lia). pose proof eps_pos as EP.
  unfold blocker in E. change ((3 <? 2)%nat || (3 <? 3)%nat) with false in E. cbv iota in E. destruct (nb =? 0)%nat; [discriminate|].
  destruct (negb (1 <? length points / nb)%nat); [discriminate|]. cbn [divisions] in E. injection E as <- _.
  assert (forall l, filter (holds p) (filter (fun b : list (list R) => negb (length b =? 0)%nat) l) = filter (holds p) l) as FF.
  { intros l. induction l as [|b l IH]; [reflexivity|]. cbn [filter]. destruct b as [|q b]; cbn [length Nat.eqb negb filter]; [|rewrite IH; reflexivity].
    unfold holds at 2. destruct in_dec as [i|i]; [destruct i|exact IH]. }
  rewrite FF. clear FF. cbn [seq map nth lows].
  match goal with |- (_ <= length (filter _ (map ?F (flat_map ?H ?ys))))%nat => pose proof (count_flat (holds p) F H ys) as CF; replace nb with (length ys) at 1 by (unfold linspace; rewrite map_length, seq_length; reflexivity) end.
  apply CF. clear CF. intros y Hy. unfold linspace in Hy. apply in_map_iff in Hy. destruct Hy as (i & <- & Hi). apply in_seq in Hi.
  destruct (in_some_slab points 2 nb p N Ip) as (k & Hk & Sk). apply in_slab_spec in Sk. destruct Sk as [_ Sk].
  assert (length p = 3%nat) as Lp by (rewrite Forall_forall in F; apply F, Ip).
  eexists. split; [rewrite app_nil_r; apply in_map; unfold linspace; apply in_map_iff; exists k; split; [reflexivity|apply in_seq; lia]|].
  unfold holds. destruct in_dec as [_|NI]; [reflexivity|]. exfalso. apply NI. clear NI. apply filter_In. split; [exact Ip|].
  destruct p as [|x [|y [|z [|]]]]; try discriminate. cbn [in_block].
  pose proof (test_whole points 0 _ Ip) as T. pose proof (test_split points 2 nb k [x;y;z] N) as T2. cbn [nth] in T, T2. cbn [INR] in T. change (min_list (column 0 points) - eps) with (fst (lims ex points 0)). rewrite T, T2.
  cbn [nth] in Sk, TOP. assert (in_slab points 2 nb k [x; y; z] = true) as -> by (unfold in_slab; cbn [nth]; rewrite andb_true_iff, !Rleb_true; exact Sk). cbn [andb]. rewrite andb_true_r.
  unfold Rgeb, step_of, lims. cbn [fst snd INR]. rewrite EL, EH, andb_true_iff, !Rleb_true.
  set (w := (hi + eps - (lo - eps)) / INR nb). replace ((hi - lo + 2 * eps) / INR nb) with w in TOP by (unfold w; f_equal; lra).
  assert (lo <= y <= hi) as HY by (apply (HB _ Ip)). assert (0 < w) as WP by (unfold w; apply Rdiv_lt_0_compat; lra).
  assert (INR i <= INR (nb - 1)) as LI by (apply le_INR; lia). assert (0 <= INR i) by apply pos_INR. split; [nra|].
  replace ((hi + eps - (lo - eps)) / 1) with (hi + eps - (lo - eps)) by lra. nra.
Qed.
Print Assumptions C63_duplicates.
(** and more blocks than asked for can be returned: four corners of a square, two blocks asked for, four returned, two corners in two blocks each *)
Theorem C63_too_many_blocks : exists points extents b0 b1 b2 b3, (1 < length points / 2)%nat /\ blocker (fun x => x) 3 points 2 2 = Ok ([b0; b1; b2; b3], extents) /\
  In [0;1;0] b0 /\ In [0;1;0] b2 /\ In [0;1;1] b1 /\ In [0;1;1] b3.
Proof.
  pose proof eps_pos as EP. assert (eps < 1/10) as ES by (rewrite eps_val; lra).
  exists [[0;0;0];[0;1;0];[0;0;1];[0;1;1]]. eexists _, _, _, _, _. split; [cbn; lia|].
  unfold blocker. change ((3 <? 2)%nat || (3 <? 3)%nat) with false. change (2 =? 0)%nat with false. change (negb (1 <? length [[0;0;0];[0;1;0];[0;0;1];[0;1;1]] / 2)%nat) with false. cbv iota. cbn [divisions].
  cbn [seq map nth]. unfold linspace, step_of, lims. cbn [column map nth fst snd seq].
  assert (min_list [0;0;0;0] = 0) as -> by (cbn; unfold Rmin; repeat destruct Rle_dec; lra). assert (max_list [0;0;0;0] = 0) as -> by (cbn; unfold Rmax; repeat destruct Rle_dec; lra).
  assert (min_list [0;1;0;1] = 0) as -> by (cbn; unfold Rmin; repeat destruct Rle_dec; lra). assert (max_list [0;1;0;1] = 1) as -> by (cbn; unfold Rmax; repeat destruct Rle_dec; lra).
  assert (min_list [0;0;1;1] = 0) as -> by (cbn; unfold Rmin; repeat destruct Rle_dec; lra). assert (max_list [0;0;1;1] = 1) as -> by (cbn; unfold Rmax; repeat destruct Rle_dec; lra).
  cbn [lows flat_map map app INR]. cbn [filter in_block]. unfold Rgeb.
  repeat match goal with |- context [Rleb ?a ?b] => first [rewrite (proj2 (Rleb_true a b)) by lra | rewrite (proj2 (Rleb_false a b)) by lra] end.
  cbn [andb negb length Nat.eqb filter]. split; [reflexivity|]. cbn. auto 10.
Qed.
Print Assumptions C63_too_many_blocks.
Example C63_case : (0 - eps + INR (2 - 1) * ((1 - 0 + 2 * eps) / INR 2) <= nth 1 [0;1;0] 0) /\ Forall (fun q => length q = 3%nat) [[0;0;0];[0;1;0];[0;0;1];[0;1;1]].
Proof. pose proof eps_pos. assert (eps < 1/10) as ES by (rewrite eps_val; lra). split; [cbn; lra|]. repeat (apply Forall_cons; [reflexivity|]); apply Forall_nil. Qed.

(** ---- C64: two ranks, axis 0 and axis 1: a point of rank 0 beyond the last node of rank 0's local sizing grid along the axis ---- *)
Theorem C64_point_outside_local_sizing_grid : forall axis, (axis = 0 \/ axis = 1)%nat ->
  exists points bbox h0 blocks extents p, 0 < h0 /\ (forall q, In q points -> forall k, (k < 2)%nat -> fst (nth k bbox (0, 0)) <= nth k q 0 <= snd (nth k bbox (0, 0))) /\
  blocker (fun x => x) 2 points 2 axis = Ok (blocks, extents) /\ length blocks = 2%nat /\ In p (nth 0 blocks []) /\
  forall x, In x (nth axis (sizing_vectors bbox 0 2 axis h0) []) -> x < nth axis p 0.
Proof.
  intros axis A. pose proof eps_pos as EP. assert (eps < 1/10) as ES by (rewrite eps_val; lra).
  assert (forall x, In x (arange (0 + INR 0 * ((10 - 0) / INR 2) - 3 * 1) (0 + INR 1 * ((10 - 0) / INR 2) + 3 * 1) 1) -> x < 10) as AR.
  { intros x Hx. unfold arange in Hx. apply in_map_iff in Hx. destruct Hx as (k & <- & Hk). apply in_seq in Hk. unfold node. unfold n_nodes in Hk.
    cbn [INR] in *. replace ((0 + 1 * ((10 - 0) / (1 + 1)) + 3 * 1 - (0 + 0 * ((10 - 0) / (1 + 1)) - 3 * 1)) / 1) with (IZR 11) in Hk by lra. rewrite Zceil_IZR in Hk. change (Z.to_nat 11) with 11%nat in Hk.
    assert (INR k <= INR 10) as L by (apply le_INR; lia). cbn [INR] in L. lra. }
  exists [[0;0];[10;0];[0;10];[10;10]], [(0,10);(0,10)], 1.
  assert (forall q, In q [[0;0];[10;0];[0;10];[10;10]] -> forall k, (k < 2)%nat -> fst (nth k [(0,10);(0,10)] (0, 0)) <= nth k q 0 <= snd (nth k [(0,10);(0,10)] (0, 0))) as BX.
  { intros q Hq k Hk. cbn in Hq. destruct k as [|[|]]; [| |lia]; repeat (destruct Hq as [<-|Hq]; [cbn; lra|]); destruct Hq. }
  destruct A as [-> | ->].
  - eexists _, _, [10;0]. split; [lra|]. split; [exact BX|].
    rewrite (blocker_slabs 2 _ 2 0); [|left; reflexivity|left; reflexivity|lia|cbn; lia|repeat (apply Forall_cons; [reflexivity|]); apply Forall_nil].
    cbn [split_coord seq map]. unfold slab, in_slab, slab_lo. cbn [column map nth].
    assert (min_list [0;0;10;10] = 0) as -> by (cbn; unfold Rmin; repeat destruct Rle_dec; lra). assert (max_list [0;0;10;10] = 10) as -> by (cbn; unfold Rmax; repeat destruct Rle_dec; lra). cbn [filter INR nth].
    repeat match goal with |- context [Rleb ?a ?b] => first [rewrite (proj2 (Rleb_true a b)) by lra | rewrite (proj2 (Rleb_false a b)) by lra] end.
    cbn [andb filter length Nat.eqb negb]. split; [reflexivity|]. split; [reflexivity|]. split; [right; left; reflexivity|]. exact AR.
  - eexists _, _, [0;10]. split; [lra|]. split; [exact BX|].
    rewrite (blocker_slabs 2 _ 2 1); [|left; reflexivity|right; reflexivity|lia|cbn; lia|repeat (apply Forall_cons; [reflexivity|]); apply Forall_nil].
    cbn [split_coord seq map]. unfold slab, in_slab, slab_lo. cbn [column map nth].
    assert (min_list [0;10;0;10] = 0) as -> by (cbn; unfold Rmin; repeat destruct Rle_dec; lra). assert (max_list [0;10;0;10] = 10) as -> by (cbn; unfold Rmax; repeat destruct Rle_dec; lra). cbn [filter INR nth].
    repeat match goal with |- context [Rleb ?a ?b] => first [rewrite (proj2 (Rleb_true a b)) by lra | rewrite (proj2 (Rleb_false a b)) by lra] end.
    cbn [andb filter length Nat.eqb negb]. split; [reflexivity|]. split; [reflexivity|]. split; [right; left; reflexivity|]. exact AR.
Qed.
Print Assumptions C64_point_outside_local_sizing_grid.

(** ---- C78: binary64 arithmetic, rounding to nearest even: no block contains a point at the right end of the interval [-1, 2] ---- *)
Theorem C78_rounding_drops_points : forall points num_blocks blocks extents,
  (forall p, In p points -> -1 <= nth 0 p 0 <= 2) -> (exists p, In p points /\ nth 0 p 0 = -1) -> (exists p, In p points /\ nth 0 p 0 = 2) ->
  blocker (round radix2 (FLT_exp (-1074) 53) ZnearestE) 2 points num_blocks 0 = Ok (blocks, extents) ->
  (exists p, In p points /\ forall b, In b blocks -> ~ In p b) /\ forall b p, In b blocks -> In p b -> nth 0 p 0 <> 2.
Proof.
  intros points nb blocks extents HB (pl & Il & El) (ph & Ih & Eh) E.
  assert (points <> []) as NE by (destruct points; [destruct Il|discriminate]).
  assert (min_list (column 0 points) = -1) as EL by (apply Rle_antisym; [rewrite <- El; apply col_min, Il|destruct (col_min_at 0 points NE) as (q & I & <-); apply HB, I]).
  assert (max_list (column 0 points) = 2) as EH by (apply Rle_antisym; [destruct (col_max_at 0 points NE) as (q & I & <-); apply HB, I|rewrite <- Eh; apply col_max, Ih]).
  pose proof (loses points nb blocks extents EL EH E) as L. split; [|exact L]. exists ph. split; [exact Ih|]. intros b Hb Hp. exact (L b ph Hb Hp Eh).
Qed.
Print Assumptions C78_rounding_drops_points.
Example C78_case : exists points blocks extents, blocker (round radix2 (FLT_exp (-1074) 53) ZnearestE) 2 points 2 0 = Ok (blocks, extents) /\
  (forall p, In p points -> -1 <= nth 0 p 0 <= 2) /\ (exists p, In p points /\ nth 0 p 0 = -1) /\ (exists p, In p points /\ nth 0 p 0 = 2).
Proof.
  exists [[-1;0];[2;0];[-1;1];[2;1]]. eexists _, _. split; [reflexivity|]. split.
  - intros q Hq. cbn in Hq. repeat (destruct Hq as [<-|Hq]; [cbn; lra|]). destruct Hq.
  - split; [exists [-1;0]|exists [2;0]]; (split; [cbn; auto|reflexivity]).
Qed.
