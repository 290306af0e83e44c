(** C89 (continued): which points the ranks of a generate_mesh call export. *)
From Coq Require Import List ZArith Reals Bool Arith Lia Lra Sorted.
From Verif Require Import Model.Base Model.Simplex Model.MPI Model.Migration Model.WhereTo Model.Generator Model.Parallel Spec.Linear Spec.Export Spec.Lockstep
  Proofs.ListAux Proofs.MeshAux Proofs.WhereToProofs Proofs.ExportTable Proofs.ExportMain Proofs.Choreo Proofs.ExchangeProofs Props.P12_ghosts Props.P25_parallel.
Import ListNotations.
Local Open Scope nat_scope.

(** after triangulating its points (vertices pts, cells cells), rank r sends down, in vertex order, exactly the vertices whose first cell touching a
    neighbour's box touches the box of the rank below, and up those whose first such cell touches only the box of the rank above *)
Theorem C89_exported_points : forall Q size P ext c p r pts cells b1 b2, 2 <= size -> r < size -> 1 <= g_dim (P r) ->
  extents_ok (g_dim (P r)) size ext -> neighbours (g_dim (P r)) size r ext b1 b2 -> q_tri Q r c (p r) = (pts, cells) -> mesh_ok (g_dim (P r)) pts cells ->
  let hit := first_hit (g_dim (P r)) (q_meets Q) b1 b2 pts cells in let cell e := map (fun i => nth i pts []) (nth e cells []) in
  (exists v, v < length pts /\ forall e, ~ hit v e) ->
  table Q size (P r) ext r c (p r) <> None /\ exists below above, StronglySorted lt below /\ StronglySorted lt above /\
   (forall v, In v below <-> v < length pts /\ exists e, hit v e /\ q_meets Q (cell e) b1 = true) /\
   (forall v, In v above <-> v < length pts /\ exists e, hit v e /\ q_meets Q (cell e) b1 = false) /\
   to_below (exported Q size P ext c p r) = map (fun v => nth v pts []) below /\
   to_above (exported Q size P ext c p r) = map (fun v => nth v pts []) above.
Proof.
  intros Q size P ext c p r pts cells b1 b2 S2 Hr D X N T M hit cell U. set (d := g_dim (P r)) in *.
  destruct (boxes d size r ext b1 b2 S2 Hr X N) as (E1 & E2 & O1 & O2). set (dest := destination d (q_meets Q) b1 b2 pts cells).
  pose proof (proj1 (unsent d D (q_meets Q) b1 b2 O1 O2 pts cells M) U) as UL.
  pose proof (proj1 M) as Pd. destruct (poked_ok d pts dest Pd D UL) as (bf & W & L & V).
  change (where_to d (q_meets Q) b1 b2 pts cells = Some bf) in W.
  destruct (read_ok d pts dest Pd D bf (q_unknown Q) UL L V) as (R1 & R2 & R3 & R4 & _).
  assert (TB : table Q size (P r) ext r c (p r) = Some (read_table d (table_view d (length pts) (q_unknown Q) bf))).
  { unfold table. rewrite T. fold d. unfold enqueue. rewrite E1, E2, W. reflexivity. }
  split; [rewrite TB; discriminate|]. exists (belowL pts dest), (aboveL pts dest).
  split; [apply filter_sorted|]. split; [apply filter_sorted|].
  split; [apply (in_below d D (q_meets Q) b1 b2 O1 O2 pts cells M)|]. split; [apply (in_above d D (q_meets Q) b1 b2 O1 O2 pts cells M)|].
  unfold exported. rewrite TB. split; [exact R3 | exact R4].
Qed.
Print Assumptions C89_exported_points.

(** the two ranks of C89_case *)
Example C89_exported_case : forall r, r < 2 -> exists b1 b2, extents_ok 2 2 ext2 /\ neighbours 2 2 r ext2 b1 b2 /\
  q_tri Q2 r 0 (own r) = (own r, [[0;1;2]]) /\ mesh_ok 2 (own r) [[0;1;2]] /\
  exists v, v < length (own r) /\ forall e, ~ first_hit 2 (q_meets Q2) b1 b2 (own r) [[0;1;2]] v e.
Proof.
  intros r L. exists (lower_box 2 2 r ext2), (upper_box 2 2 r ext2). split; [|split; [|split; [|split]]].
  - split; [reflexivity|]. repeat (apply Forall_cons; [split; [reflexivity|]; cbn [firstn skipn]; repeat (apply Forall2_cons; [lra|]); apply Forall2_nil|]). apply Forall_nil.
  - unfold neighbours, lower_box, upper_box. destruct r as [|[|r]]; [| |lia]; cbn; repeat split; intros; try lia; reflexivity.
  - reflexivity.
  - split; [destruct r as [|[|r]]; [| |lia]; repeat (apply Forall_cons; [reflexivity|]); apply Forall_nil|]. apply Forall_cons; [|apply Forall_nil]. split; [reflexivity|].
    destruct r as [|[|r]]; [| |lia]; repeat (apply Forall_cons; [cbn; lia|]); apply Forall_nil.
  - exists 3. split; [destruct r as [|[|r]]; [| |lia]; cbn; lia|]. intros e (He & I & _). destruct e as [|e]; [cbn in I; lia | cbn in He; lia].
Qed.
