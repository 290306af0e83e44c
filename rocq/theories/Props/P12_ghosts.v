(** C59-C61: selection of the vertices a rank sends to its two neighbours, and the table they are sent in.  [meets] is the geometry library's
    test of the circumscribed circle/sphere of an element against a box, [unknown k] what memory holds at position k behind the table's buffer. *)
From Coq Require Import List ZArith Reals Bool Arith Lia Lra Sorted Classical_Prop.
From Coq Require ClassicalDedekindReals.
From Verif Require Import Model.Base Model.Simplex Model.MPI Model.Migration Model.WhereTo Spec.Linear Spec.Export Proofs.ListAux Proofs.MeshAux Proofs.WhereToProofs Proofs.ExportTable Proofs.ExportMain Proofs.Choreo Proofs.ExchangeProofs.
Import ListNotations.
Local Open Scope nat_scope.

(** one row per rank: lower corner, then upper corner *)
Definition extents_ok (d size : nat) (extents : list (list R)) : Prop :=
  length extents = size /\ Forall (fun e => length e = 2 * d /\ Forall2 Rle (firstn d e) (skipn d e)) extents.
(** boxes of the neighbours; stand-ins far away below the first and above the last rank *)
Definition neighbours (d size rank : nat) (extents : list (list R)) (b1 b2 : list R * list R) : Prop :=
  (0 < rank -> b1 = (firstn d (nth (rank - 1) extents []), skipn d (nth (rank - 1) extents []))) /\
  (rank + 1 < size -> b2 = (firstn d (nth (rank + 1) extents []), skipn d (nth (rank + 1) extents []))) /\
  (rank = 0 -> b1 = (repeat (-999999999)%R d, repeat (-999999998)%R d)) /\
  (rank + 1 = size -> b2 = (repeat (-999999999)%R d, repeat (-999999998)%R d)).
Lemma row_box d size extents r : extents_ok d size extents -> r < size -> extent_box d extents r = (firstn d (nth r extents []), skipn d (nth r extents [])) /\ box_ok d (extent_box d extents r).
Proof.
  intros [L F] H. rewrite Forall_forall in F. destruct (F (nth r extents [])) as [Lr Fr]; [apply nth_In; lia|].
  unfold extent_box. assert (firstn d (skipn d (nth r extents [])) = skipn d (nth r extents [])) as E by (apply firstn_all2; rewrite skipn_length; lia).
  cbv zeta. rewrite E. split; [reflexivity|]. unfold box_ok. cbn [fst snd]. rewrite firstn_length, skipn_length. split; [lia|]. split; [lia|exact Fr].
Qed.
Lemma dummy_ok d : box_ok d (dummy_box d).
Proof.
  unfold box_ok, dummy_box. cbn [fst snd]. rewrite !repeat_length. split; [reflexivity|]. split; [reflexivity|].
  induction d; cbn; constructor; [lra|exact IHd].
Qed.
Lemma boxes d size rank extents b1 b2 : 2 <= size -> rank < size -> extents_ok d size extents -> neighbours d size rank extents b1 b2 ->
  lower_box d size rank extents = b1 /\ upper_box d size rank extents = b2 /\ box_ok d b1 /\ box_ok d b2.
Proof.
  intros S2 Hr X (N1 & N2 & N3 & N4). unfold lower_box, upper_box.
  destruct (Nat.eqb_spec rank 0) as [->|N].
  - rewrite N3, N2 by lia. destruct (row_box d size extents (0 + 1) X ltac:(lia)) as [E O]. rewrite <- E. repeat split; try apply dummy_ok; apply O.
  - rewrite N1 by lia. destruct (row_box d size extents (rank - 1) X ltac:(lia)) as [E O]. rewrite <- E. destruct (Nat.eqb_spec rank (size - 1)) as [Q|Q].
    + rewrite N4 by lia. repeat split; try apply dummy_ok; apply O.
    + rewrite N2 by lia. destruct (row_box d size extents (rank + 1) X ltac:(lia)) as [E' O']. rewrite <- E'. repeat split; try apply O; apply O'.
Qed.

(** ---- C59: when at least one vertex is sent to nobody ---- *)
Theorem C59_table : forall d meets unknown extents points faces rank size b1 b2, 1 <= d -> 2 <= size -> rank < size ->
  extents_ok d size extents -> neighbours d size rank extents b1 b2 -> mesh_ok d points faces ->
  (exists v, v < length points /\ forall e, ~ first_hit d meets b1 b2 points faces v e) ->
  exists t below above, enqueue d meets unknown extents points faces rank size = Some t /\
   StronglySorted lt below /\ StronglySorted lt above /\ (forall v, In v below -> ~ In v above) /\
   (forall v, In v below <-> v < length points /\ exists e, first_hit d meets b1 b2 points faces v e /\ meets (map (fun i => nth i points []) (nth e faces [])) b1 = true) /\
   (forall v, In v above <-> v < length points /\ exists e, first_hit d meets b1 b2 points faces v e /\ meets (map (fun i => nth i points []) (nth e faces [])) b1 = false) /\
   nth 0 t [] = INR (length below) :: INR (length above) :: repeat 0%R (d - 1) /\
   firstn (length below) (tl t) = map (fun v => nth v points [] ++ [INR v]) below /\
   firstn (length above) (skipn (length below) (tl t)) = map (fun v => nth v points [] ++ [INR v]) above.
Proof.
  intros d meets unknown extents points faces rank size b1 b2 D S2 Hr X N M U. destruct (boxes d size rank extents b1 b2 S2 Hr X N) as (E1 & E2 & O1 & O2).
  destruct (table_exact d D meets b1 b2 O1 O2 points faces M unknown U) as (buf & below & above & W & L & S1 & S2' & I1 & I2 & DJ & H0 & H1 & H2 & _).
  exists (table_view d (length points) unknown buf), below, above. unfold enqueue. rewrite E1, E2, W. cbn [option_map]. split; [reflexivity|]. auto 12.
Qed.
Print Assumptions C59_table.

(** the whole exchange: if on every rank one vertex is sent to nobody and there is one for each neighbour, all ranks finish in every order of
    execution and receive exactly the vertices their neighbours selected, in vertex order *)
Theorem C59_delivered : forall d meets unknown extents size (points : nat -> list (list R)) faces b1 b2, 1 <= d -> 2 <= size -> extents_ok d size extents ->
  (forall r, r < size -> neighbours d size r extents (b1 r) (b2 r) /\ mesh_ok d (points r) (faces r) /\
     (exists v, v < length (points r) /\ forall e, ~ first_hit d meets (b1 r) (b2 r) (points r) (faces r) v e) /\
     (0 < r -> exists v e, v < length (points r) /\ first_hit d meets (b1 r) (b2 r) (points r) (faces r) v e /\ meets (map (fun i => nth i (points r) []) (nth e (faces r) [])) (b1 r) = true) /\
     (r + 1 < size -> exists v e, v < length (points r) /\ first_hit d meets (b1 r) (b2 r) (points r) (faces r) v e /\ meets (map (fun i => nth i (points r) []) (nth e (faces r) [])) (b1 r) = false)) ->
  exists below above : nat -> list nat,
  (forall r, r < size -> StronglySorted lt (below r) /\ StronglySorted lt (above r) /\
    (forall v, In v (below r) <-> v < length (points r) /\ exists e, first_hit d meets (b1 r) (b2 r) (points r) (faces r) v e /\ meets (map (fun i => nth i (points r) []) (nth e (faces r) [])) (b1 r) = true) /\
    (forall v, In v (above r) <-> v < length (points r) /\ exists e, first_hit d meets (b1 r) (b2 r) (points r) (faces r) v e /\ meets (map (fun i => nth i (points r) []) (nth e (faces r) [])) (b1 r) = false)) /\
  exists t : nat -> list (list R), (forall r, r < size -> enqueue d meets (unknown r) extents (points r) (faces r) r size = Some (t r)) /\
  forall k s, run k (start (exchange_all size (fun r => [read_table d (t r)]))) s ->
   k <= 4 * (size - 1) /\ (~ finished s -> exists s', step false s s') /\
   (finished s -> forall r, r < size -> returned (log s r) =
     (if r + 1 <? size then map (fun v => nth v (points (r + 1)) []) (below (r + 1)) else []) ++
     (if r =? 0 then [] else map (fun v => nth v (points (r - 1)) []) (above (r - 1)))).
Proof.
  intros d meets unknown extents size points faces b1 b2 D S2 X H.
  set (dest := fun r => destination d meets (b1 r) (b2 r) (points r) (faces r)).
  set (buf := fun r => match where_to d meets (b1 r) (b2 r) (points r) (faces r) with Some b => b | None => [] end).
  set (t := fun r => table_view d (length (points r)) (unknown r) (buf r)).
  assert (forall r, r < size -> exists below above, enqueue d meets (unknown r) extents (points r) (faces r) r size = Some (t r) /\
    below = belowL (points r) (dest r) /\ above = aboveL (points r) (dest r) /\ let e := read_table d (t r) in
    nsb e = length below /\ nsa e = length above /\ firstn (nsb e) (rows e) = map (fun v => nth v (points r) []) below /\
    firstn (nsa e) (skipn (nsb e) (rows e)) = map (fun v => nth v (points r) []) above) as G.
  { intros r Hr. destruct (H r Hr) as (N & M & U & _). destruct (boxes d size r extents (b1 r) (b2 r) S2 Hr X N) as (E1 & E2 & O1 & O2).
    exists (belowL (points r) (dest r)), (aboveL (points r) (dest r)). pose proof (proj1 (unsent d D meets (b1 r) (b2 r) O1 O2 (points r) (faces r) M) U) as UL.
    pose proof (proj1 M) as Pd. destruct (poked_ok d (points r) (dest r) Pd D UL) as (bf & W & L & V).
    change (where_to d meets (b1 r) (b2 r) (points r) (faces r) = Some bf) in W.
    assert (buf r = bf) as Eb by (unfold buf; rewrite W; reflexivity).
    split; [unfold enqueue; rewrite E1, E2, W; cbn [option_map]; unfold t; rewrite Eb; reflexivity|]. split; [reflexivity|]. split; [reflexivity|].
    intros e. unfold e, t. rewrite Eb. destruct (read_ok d (points r) (dest r) Pd D bf (unknown r) UL L V) as (R1 & R2 & R3 & R4 & _). repeat split; assumption. }
  exists (fun r => belowL (points r) (dest r)), (fun r => aboveL (points r) (dest r)). split.
  { intros r Hr. destruct (H r Hr) as (N & M & _). destruct (boxes d size r extents (b1 r) (b2 r) S2 Hr X N) as (_ & _ & O1 & O2).
    split; [apply filter_sorted|]. split; [apply filter_sorted|]. split; [apply (in_below d D meets (b1 r) (b2 r) O1 O2 (points r) (faces r) M)|apply (in_above d D meets (b1 r) (b2 r) O1 O2 (points r) (faces r) M)]. }
  exists t. split; [intros r Hr; destruct (G r Hr) as (_ & _ & E & _); exact E|].
  intros k s Rn.
  destruct (exchange_ok size 1 (fun _ r => read_table d (t r)) S2) with (n := k) (s := s) as (K1 & K2 & K3).
  - intros j r _ Hr. destruct (G r Hr) as (bl & ab & _ & Eb & Ea & R1 & R2 & _). destruct (H r Hr) as (N & M & _ & HB & HA).
    destruct (boxes d size r extents (b1 r) (b2 r) S2 Hr X N) as (_ & _ & O1 & O2). split.
    + intros P. destruct (HB P) as (v & e & Hv & F & Me). rewrite R1, Eb. assert (In v (belowL (points r) (dest r))) as I.
      { apply (in_below d D meets (b1 r) (b2 r) O1 O2 (points r) (faces r) M). split; [exact Hv|]. exists e. split; assumption. }
      destruct (belowL (points r) (dest r)); [destruct I|discriminate].
    + intros P. destruct (HA P) as (v & e & Hv & F & Me). rewrite R2, Ea. assert (In v (aboveL (points r) (dest r))) as I.
      { apply (in_above d D meets (b1 r) (b2 r) O1 O2 (points r) (faces r) M). split; [exact Hv|]. exists e. split; assumption. }
      destruct (aboveL (points r) (dest r)); [destruct I|discriminate].
  - exact Rn.
  - split; [lia|]. split; [exact K2|]. intros FI r Hr. destruct (K3 FI) as [_ K]. rewrite (K r Hr). cbn [seq flat_map]. rewrite app_nil_r. unfold returned.
    rewrite map_app, concat_app. f_equal.
    + destruct (Nat.ltb_spec (r + 1) size) as [P|P]; [|reflexivity]. destruct (G (r + 1) P) as (bl & ab & _ & Eb & Ea & R1 & R2 & R3 & R4). cbv zeta in R3 |- *. cbn [map snd concat]. unfold ExchangeProofs.below. rewrite R3, app_nil_r, Eb. reflexivity.
    + destruct (Nat.eqb_spec r 0) as [P|P]; [reflexivity|]. destruct (G (r - 1) ltac:(lia)) as (bl & ab & _ & Eb & Ea & R1 & R2 & R3 & R4). cbv zeta in R4 |- *. cbn [map snd concat]. unfold ExchangeProofs.above. rewrite R4, app_nil_r, Ea. reflexivity.
Qed.
Print Assumptions C59_delivered.

(** ---- C60 ---- *)
(** the buffer holds d entries less than the view; what the view shows in columns 1..d of its last row is foreign memory *)
Theorem C60_view_exceeds_buffer : forall d meets b1 b2 points faces buf unknown, 1 <= d -> box_ok d b1 -> box_ok d b2 -> mesh_ok d points faces ->
  where_to d meets b1 b2 points faces = Some buf ->
  let t := table_view d (length points) unknown buf in
  length (concat t) = length buf + d /\ forall j, 1 <= j <= d -> nth j (nth (length points) t []) 0%R = unknown (length points * S d + j).
Proof.
  intros d meets b1 b2 points faces buf unknown D O1 O2 M W t. destruct (out_of_bounds d D meets b1 b2 O1 O2 points faces M) as [_ L]. specialize (L buf W). split.
  - rewrite L. unfold t, table_view.
    assert (forall (f : nat -> nat -> R) (l : list nat), length (concat (map (fun i => map (f i) (seq 0 (S d))) l)) = length l * S d) as Q.
    { intros f l. induction l as [|a l IH]; [reflexivity|]. cbn [map concat]. rewrite app_length, map_length, seq_length, IH. cbn [length]. lia. }
    cbv zeta. rewrite (Q (fun i j => if i * S d + j <? length buf then nth (i * S d + j) buf 0%R else unknown (i * S d + j))). rewrite seq_length. lia.
  - intros j Hj. apply view_beyond; assumption.
Qed.
Print Assumptions C60_view_exceeds_buffer.
(** [None]: an entry behind the end of the buffer was written *)
Theorem C60_write_beyond_buffer : forall d meets b1 b2 points faces, 1 <= d -> box_ok d b1 -> box_ok d b2 -> mesh_ok d points faces ->
  (where_to d meets b1 b2 points faces = None <-> forall v, v < length points -> exists e, first_hit d meets b1 b2 points faces v e).
Proof. intros d meets b1 b2 points faces D O1 O2 M. apply (out_of_bounds d D meets b1 b2 O1 O2 points faces M). Qed.
Print Assumptions C60_write_beyond_buffer.

(** ---- C61 ---- *)
(** what the selection guarantees: only vertices of a non-degenerate element whose circumscribed ball meets the neighbour's box are sent to it *)
Theorem C61_sound : forall d meets b1 b2 points faces v o, box_ok d b1 -> box_ok d b2 -> mesh_ok d points faces -> intersection_test d meets ->
  destination d meets b1 b2 points faces v = Some o ->
  exists e, e < length faces /\ In v (nth e faces []) /\ let s := map (fun i => nth i points []) (nth e faces []) in
    simp_vol s <> 0%R /\ ball_meets s (if o then b2 else b1) /\ (span_meets d s b1 \/ span_meets d s b2).
Proof.
  intros d meets b1 b2 points faces v o O1 O2 M IT E.
  destruct (dest_spec d meets b1 b2 O1 O2 points faces (faces_ne d points faces M) v) as [D1 [D2 _]]. destruct o.
  - apply D2 in E. destruct E as (e & (L & I & U & MM & _) & F). exists e. split; [exact L|]. split; [exact I|]. cbv zeta. destruct U as [NV SP]. split; [exact NV|]. split; [|exact SP].
    destruct (IT _ b2 (simplex_at d points faces e M L) NV (proj1 O2) (proj1 (proj2 O2))) as [_ T]. apply T. destruct MM; congruence.
  - apply D1 in E. destruct E as (e & (L & I & U & MM & _) & F). exists e. split; [exact L|]. split; [exact I|]. cbv zeta. destruct U as [NV SP]. split; [exact NV|]. split; [|exact SP].
    destruct (IT _ b1 (simplex_at d points faces e M L) NV (proj1 O1) (proj1 (proj2 O1))) as [_ T]. apply T. exact F.
Qed.
Print Assumptions C61_sound.
(** a vertex of a non-degenerate element whose circumscribed circle meets a neighbour's box and whose own box meets one of the boxes is sent to one of the two *)
Theorem C61_complete : forall d meets b1 b2 points faces v e, box_ok d b1 -> box_ok d b2 -> mesh_ok d points faces -> intersection_test d meets ->
  e < length faces -> In v (nth e faces []) -> let s := map (fun i => nth i points []) (nth e faces []) in
  simp_vol s <> 0%R -> span_meets d s b1 \/ span_meets d s b2 -> sphere_meets s b1 \/ sphere_meets s b2 ->
  exists o, destination d meets b1 b2 points faces v = Some o.
Proof.
  intros d meets b1 b2 points faces v e O1 O2 M IT L I s NV SP SM.
  pose proof (scan_spec d meets b1 b2 O1 O2 _ (cells_ne d b1 b2 O1 O2 points faces (faces_ne d points faces M) v)) as H. unfold destination.
  destruct (scan d meets b1 b2 (map (element points faces) (vtoe faces v))) as [o|]; [exists o; reflexivity|]. exfalso.
  destruct (H s) as [M1 M2].
  - change s with (element points faces e). apply in_map. apply (proj2 (in_vtoe d b1 b2 O1 O2 faces v e)). split; assumption.
  - split; [exact NV|exact SP].
  - pose proof (simplex_at d points faces e M L) as SX. fold s in SX. destruct SM as [SM|SM].
    + apply (IT s b1 SX NV (proj1 O1) (proj1 (proj2 O1))) in SM. congruence.
    + apply (IT s b2 SX NV (proj1 O2) (proj1 (proj2 O2))) in SM. congruence.
Qed.
Print Assumptions C61_complete.
(** the circle of the only triangle meets both neighbours' boxes, its vertices go to the lower neighbour only *)
Theorem C61_sent_to_one_only : exists b1 b2 points faces, box_ok 2 b1 /\ box_ok 2 b2 /\ mesh_ok 2 points faces /\
  let s := map (fun i => nth i points []) (nth 0 faces []) in simp_vol s <> 0%R /\ sphere_meets s b1 /\ sphere_meets s b2 /\ span_meets 2 s b1 /\ span_meets 2 s b2 /\
  forall meets, intersection_test 2 meets -> forall v, v < length points -> destination 2 meets b1 b2 points faces v = Some false.
Proof.
  exists ([0;-1], [2;0])%R, ([0;2], [2;3])%R, [[0;0];[2;0];[0;2]]%R, [[0;1;2]].
  assert (box_ok 2 ([0;-1], [2;0])%R) as O1 by (repeat split; repeat (apply Forall2_cons; [lra|]); apply Forall2_nil).
  assert (box_ok 2 ([0;2], [2;3])%R) as O2 by (repeat split; repeat (apply Forall2_cons; [lra|]); apply Forall2_nil).
  assert (mesh_ok 2 [[0;0];[2;0];[0;2]]%R [[0;1;2]]) as M.
  { split; [repeat (apply Forall_cons; [reflexivity|]); apply Forall_nil|]. apply Forall_cons; [|apply Forall_nil]. split; [reflexivity|]. repeat (apply Forall_cons; [cbn; lia|]); apply Forall_nil. }
  split; [exact O1|]. split; [exact O2|]. split; [exact M|]. intros s. cbn [map nth] in s.
  assert (simp_vol s <> 0%R) as NV by (cbn; lra).
  assert (circumscribed s [1;1]%R 2%R) as CI by (unfold circumscribed; repeat (apply Forall_cons; [split; [reflexivity|cbn; lra]|]); apply Forall_nil).
  assert (sphere_meets s ([0;-1], [2;0])%R) as S1.
  { exists [1;1]%R, 2%R, [0;0]%R. split; [exact CI|]. split; [split; cbn; repeat (apply Forall2_cons; [lra|]); apply Forall2_nil|cbn; lra]. }
  assert (sphere_meets s ([0;2], [2;3])%R) as S2.
  { exists [1;1]%R, 2%R, [0;2]%R. split; [exact CI|]. split; [split; cbn; repeat (apply Forall2_cons; [lra|]); apply Forall2_nil|cbn; lra]. }
  assert (span_meets 2 s ([0;-1], [2;0])%R) as P1.
  { exists [0;0]%R. split; [split; cbn; repeat (apply Forall2_cons; [lra|]); apply Forall2_nil|]. intros k Hk. split; exists [0;0]%R; (split; [left; reflexivity|]); destruct k as [|[|]]; cbn; lra || lia. }
  assert (span_meets 2 s ([0;2], [2;3])%R) as P2.
  { exists [0;2]%R. split; [split; cbn; repeat (apply Forall2_cons; [lra|]); apply Forall2_nil|]. intros k Hk. split; exists [0;2]%R; (split; [right; right; left; reflexivity|]); destruct k as [|[|]]; cbn; lra || lia. }
  split; [exact NV|]. split; [exact S1|]. split; [exact S2|]. split; [exact P1|]. split; [exact P2|]. intros meets IT v Hv.
  apply (dest_spec 2 meets _ _ O1 O2 _ _ (faces_ne 2 _ _ M) v). exists 0.
  assert (meets s ([0;-1], [2;0])%R = true) as MT by (apply (IT s ([0;-1], [2;0])%R (simplex_at 2 _ _ 0 M ltac:(cbn; lia)) NV eq_refl eq_refl); exact S1).
  split; [|exact MT]. unfold first_hit. cbn [map nth length]. split; [lia|]. split; [cbn in *; lia|]. split; [split; [exact NV|left; exact P1]|]. split; [left; exact MT|]. intros e' He. lia.
Qed.
Print Assumptions C61_sent_to_one_only.
(** the circle of the only triangle meets the lower neighbour's box, the triangle's own box does not: nothing is sent, whatever the intersection test says *)
Theorem C61_missed : exists b1 b2 points faces, box_ok 2 b1 /\ box_ok 2 b2 /\ mesh_ok 2 points faces /\
  let s := map (fun i => nth i points []) (nth 0 faces []) in simp_vol s <> 0%R /\ sphere_meets s b1 /\
  forall meets v, destination 2 meets b1 b2 points faces v = None.
Proof.
  exists ([0;-3], [2;-1])%R, ([10;10], [11;11])%R, [[0;0];[2;0];[1;1/2]]%R, [[0;1;2]].
  assert (box_ok 2 ([0;-3], [2;-1])%R) as O1 by (repeat split; repeat (apply Forall2_cons; [lra|]); apply Forall2_nil).
  assert (box_ok 2 ([10;10], [11;11])%R) as O2 by (repeat split; repeat (apply Forall2_cons; [lra|]); apply Forall2_nil).
  assert (mesh_ok 2 [[0;0];[2;0];[1;1/2]]%R [[0;1;2]]) as M.
  { split; [repeat (apply Forall_cons; [reflexivity|]); apply Forall_nil|]. apply Forall_cons; [|apply Forall_nil]. split; [reflexivity|]. repeat (apply Forall_cons; [cbn; lia|]); apply Forall_nil. }
  split; [exact O1|]. split; [exact O2|]. split; [exact M|]. intros s. cbn [map nth] in s. split; [cbn; lra|]. split.
  - exists [1;-3/4]%R, (25/16)%R, [1;-2]%R. split; [unfold circumscribed; repeat (apply Forall_cons; [split; [reflexivity|cbn; lra]|]); apply Forall_nil|].
    split; [split; cbn; repeat (apply Forall2_cons; [lra|]); apply Forall2_nil|cbn; lra].
  - intros meets v. apply (dest_spec 2 meets _ _ O1 O2 _ _ (faces_ne 2 _ _ M) v). intros (e & L & I & [_ U] & _). cbn [length] in L. assert (e = 0) by lia. subst e. cbn [map nth] in U.
    destruct U as [(q & [W1 W2] & H)|(q & [W1 W2] & H)]; cbn [fst snd] in *.
    + inversion W2 as [|x0 ? q0 ? _ W3]; subst. inversion W3 as [|x1 ? q1 ? W4 _]; subst. destruct (H 1 ltac:(lia)) as [(p & Ip & Hp) _]. cbn [nth] in Hp.
      destruct Ip as [<-|[<-|[<-|[]]]]; cbn in Hp; lra.
    + inversion W1 as [|? x0 ? q0 W4 W3]; subst. destruct (H 0 ltac:(lia)) as [_ (p & Ip & Hp)]. cbn [nth] in Hp.
      destruct Ip as [<-|[<-|[<-|[]]]]; cbn in Hp; lra.
Qed.
Print Assumptions C61_missed.

(** intersection tests exist: the exact one for circles, the exact one for disks *)
Definition circle_test (s : list (list R)) (b : list R * list R) : bool := if ClassicalDedekindReals.sig_not_dec (sphere_meets s b) then true else false.
Definition disk_test (s : list (list R)) (b : list R * list R) : bool := if ClassicalDedekindReals.sig_not_dec (ball_meets s b) then true else false.
Example C61_case : forall d, intersection_test d circle_test /\ intersection_test d disk_test.
Proof.
  intros d. assert (forall s b, sphere_meets s b -> ball_meets s b) as SB by (intros s b (c & r2 & q & C & W & E); exists c, r2, q; rewrite E; auto using Rle_refl).
  split; intros s b _ _ _ _; [unfold circle_test; destruct (ClassicalDedekindReals.sig_not_dec (sphere_meets s b))|unfold disk_test; destruct (ClassicalDedekindReals.sig_not_dec (ball_meets s b))]; split; intros H; try reflexivity; try discriminate; try contradiction.
  - apply SB, NNPP, n.
  - apply NNPP, n.
  - exfalso. exact (n (SB _ _ H)).
Qed.
(** a mesh of two triangles of which one is near the box below: two vertices of it are sent down, the table says so *)
Example C59_case : let points := [[0;0];[2;0];[0;2];[2;3]]%R in let faces := [[0;1;2];[1;3;2]] in
  let b1 := ([0;-1], [2;0])%R in let b2 := ([0;9], [2;10])%R in
  let meets := fun s (b : list R * list R) => Reqb (nth 1 (fst b) 0%R) (-1) && Reqb (nth 1 (nth 0 s []) 0%R) 0 && Reqb (nth 0 (nth 0 s []) 0%R) 0 in
  mesh_ok 2 points faces /\ box_ok 2 b1 /\ box_ok 2 b2 /\
  (exists v, v < length points /\ forall e, ~ first_hit 2 meets b1 b2 points faces v e) /\
  first_hit 2 meets b1 b2 points faces 0 0.
Proof.
  intros points faces b1 b2 meets. split.
  { split; [repeat (apply Forall_cons; [reflexivity|]); apply Forall_nil|]. apply Forall_cons; [|apply Forall_cons; [|apply Forall_nil]]; (split; [reflexivity|]); repeat (apply Forall_cons; [cbn; lia|]); apply Forall_nil. }
  split; [repeat split; repeat (apply Forall2_cons; [lra|]); apply Forall2_nil|]. split; [repeat split; repeat (apply Forall2_cons; [lra|]); apply Forall2_nil|]. split.
  - exists 3. split; [cbn; lia|]. intros e (L & I & _ & MM & _). cbn [length] in L. destruct e as [|[|]]; [cbn in I; lia| |cbn in L; lia].
    unfold meets in MM. cbn [map nth fst points faces b1 b2] in MM. destruct MM as [MM|MM]; repeat (apply andb_prop in MM; destruct MM as [MM ?H]); apply (proj1 (Reqb_true _ _)) in H; lra.
  - unfold first_hit. cbn [map nth length]. split; [cbn; lia|]. split; [left; reflexivity|]. split; [split; [cbn; lra|left]|].
    { exists [0;0]%R. split; [split; cbn; repeat (apply Forall2_cons; [lra|]); apply Forall2_nil|]. intros k Hk. split; exists [0;0]%R; (split; [left; reflexivity|]); destruct k as [|[|]]; cbn; lra || lia. }
    split; [left|intros e' He; lia]. unfold meets. cbn [nth fst b1 faces points map]. rewrite !(proj2 (Reqb_true _ _)) by lra. reflexivity.
Qed.
(** C60: the mesh of C59_case fills the buffer without overrunning it; a single exported triangle overruns it *)
Example C60_case : let b1 := ([0;-1], [2;0])%R in let b2 := ([0;9], [2;10])%R in
  (exists meets points faces buf, mesh_ok 2 points faces /\ box_ok 2 b1 /\ box_ok 2 b2 /\ where_to 2 meets b1 b2 points faces = Some buf) /\
  (exists meets points faces, mesh_ok 2 points faces /\ length points = 3 /\ where_to 2 meets b1 b2 points faces = None).
Proof.
  intros b1 b2. destruct C59_case as (M & B1 & B2 & (v & L & N) & _). split.
  - match type of N with forall e, ~ first_hit _ ?m _ _ ?p ?f _ _ => exists m, p, f; destruct (where_to 2 m b1 b2 p f) as [buf|] eqn:E end;
      [exists buf; split; [exact M|]; split; [exact B1|]; split; [exact B2|reflexivity]|]. exfalso.
    pose proof (proj1 (C60_write_beyond_buffer 2 _ b1 b2 _ _ ltac:(lia) B1 B2 M) E v L) as [e H]. exact (N e H).
  - assert (mesh_ok 2 [[0;0];[2;0];[0;2]]%R [[0;1;2]]) as M'.
    { split; [repeat (apply Forall_cons; [reflexivity|]); apply Forall_nil|]. apply Forall_cons; [|apply Forall_nil]. split; [reflexivity|]; repeat (apply Forall_cons; [cbn; lia|]); apply Forall_nil. }
    exists (fun _ _ => true), [[0;0];[2;0];[0;2]]%R, [[0;1;2]]. split; [exact M'|]. split; [reflexivity|].
    apply (C60_write_beyond_buffer 2 _ b1 b2 _ _ ltac:(lia) B1 B2 M'). intros w Lw. exists 0. unfold first_hit. cbn [map nth length] in *. split; [lia|].
    split; [cbn; lia|]. split; [split; [cbn; lra|left]|split; [left; reflexivity|intros e' He; lia]].
    exists [0;0]%R. split; [split; cbn; repeat (apply Forall2_cons; [lra|]); apply Forall2_nil|]. intros j Hj. split; exists [0;0]%R; (split; [left; reflexivity|]); destruct j as [|[|]]; cbn; lra || lia.
Qed.
