(** C56-C58, C77: communication between ranks.  A run is any interleaving of the ranks; the message layer may buffer any sends or none. *)
From Coq Require Import List ZArith Reals Bool Arith Lia Permutation.
From Verif Require Import Model.Base Model.MPI Model.Migration Model.Mesh Spec.MeshTopo Proofs.Choreo Proofs.ListAux Proofs.MeshAux Proofs.FixMeshProofs Proofs.ExchangeProofs Proofs.AggregateProofs Props.P06_mesh.
Import ListNotations.
Local Open Scope nat_scope.

(** ---- C56: tbl j r is the export table of rank r in meshing iteration j ---- *)
Theorem C56_never_blocks_and_delivers : forall size K tbl, 2 <= size ->
  (forall j r, j < K -> r < size -> (0 < r -> nsb (tbl j r) <> 0) /\ (r + 1 < size -> nsa (tbl j r) <> 0)) ->
  forall n s, run n (start (exchange_all size (fun r => map (fun j => tbl j r) (seq 0 K)))) s ->
  n <= 4 * (size - 1) * K /\
  (~ finished s -> exists s', step false s s') /\
  (finished s -> (forall p q, chan s p q = []) /\ forall r, r < size ->
     log s r = flat_map (fun j =>
        (if r + 1 <? size then let e := tbl j (r + 1) in [(r + 1, firstn (nsb e) (rows e))] else []) ++
        (if r =? 0 then [] else let e := tbl j (r - 1) in [(r - 1, firstn (nsa e) (skipn (nsb e) (rows e)))])) (seq 0 K)).
Proof. exact exchange_ok. Qed.
Print Assumptions C56_never_blocks_and_delivers.
(** what a single call returns on rank r: the points from above, then those from below *)
Theorem C56_returned : forall size ex, 2 <= size ->
  (forall r, r < size -> (0 < r -> nsb (ex r) <> 0) /\ (r + 1 < size -> nsa (ex r) <> 0)) ->
  forall n s, run n (start (exchange_all size (fun r => [ex r]))) s -> finished s -> forall r, r < size ->
  returned (log s r) = (if r + 1 <? size then firstn (nsb (ex (r + 1))) (rows (ex (r + 1))) else []) ++
                       (if r =? 0 then [] else firstn (nsa (ex (r - 1))) (skipn (nsb (ex (r - 1))) (rows (ex (r - 1))))) /\
  returned_len (ex r) (log s r) = length (returned (log s r)).
Proof.
  intros size ex S2 H n s Rn F r Hr. destruct (C56_never_blocks_and_delivers size 1 (fun _ => ex) S2 (fun _ r _ L => H r L) n s Rn) as (_ & _ & D).
  destruct (D F) as [_ L]. specialize (L r Hr). cbn [seq flat_map] in L. rewrite app_nil_r in L. rewrite L. split.
  - unfold returned. rewrite map_app, concat_app. destruct (r + 1 <? size), (r =? 0); cbn; rewrite ?app_nil_r; reflexivity.
  - unfold returned_len. destruct (H r Hr) as [H1 H2]. replace ((nsb (ex r) =? 0) && (nsa (ex r) =? 0)) with false; [reflexivity|].
    symmetry. apply andb_false_iff. rewrite !Nat.eqb_neq. destruct r; [right; apply H2; lia|left; apply H1; lia].
Qed.
Print Assumptions C56_returned.
(** three ranks, two iterations, one point for every neighbour *)
Definition full3 (j r : nat) : exports := {| nsb := if r =? 0 then 0 else 1; nsa := if r =? 2 then 0 else 1;
  rows := if r =? 1 then [[INR j; 0%R]; [INR j; 1%R]] else [[INR j; INR r]] |}.
Example C56_case : (forall j r, j < 2 -> r < 3 -> (0 < r -> nsb (full3 j r) <> 0) /\ (r + 1 < 3 -> nsa (full3 j r) <> 0)) /\
  exists n s, run n (start (exchange_all 3 (fun r => map (fun j => full3 j r) (seq 0 2)))) s /\ finished s /\
   log s 1 = [(2, [[INR 0; INR 2]]); (0, [[INR 0; INR 0]]); (2, [[INR 1; INR 2]]); (0, [[INR 1; INR 0]])].
Proof.
  assert (forall j r, j < 2 -> r < 3 -> (0 < r -> nsb (full3 j r) <> 0) /\ (r + 1 < 3 -> nsa (full3 j r) <> 0)) as F.
  { intros j r Hj Hr. unfold full3. cbn [nsb nsa]. destruct r as [|[|[|r]]]; cbn; lia. }
  split; [exact F|]. destruct (choreography_completes _ _ _ (chors_distinct 3 2 full3) (fun r => project_chors 3 2 full3 r ltac:(lia) F) 0 _ (run_nil _)) as [k [s' [Rn FI]]].
  exists k, s'. split; [exact Rn|]. split; [exact FI|]. destruct (C56_never_blocks_and_delivers 3 2 full3 ltac:(lia) F k s' Rn) as [_ [_ D]].
  destruct (D FI) as [_ L]. rewrite (L 1 ltac:(lia)). reflexivity.
Qed.

(** ---- C57 ---- *)
(** one exchange can complete only if nobody has anything to send, or everybody has something for every neighbour *)
Theorem C57_completes_iff : forall size ex, 2 <= size ->
  ((exists n s, run n (start (exchange_all size (fun r => [ex r]))) s /\ finished s) <->
   (forall r, r < size -> nsb (ex r) = 0 /\ nsa (ex r) = 0) \/
   (forall r, r < size -> (0 < r -> nsb (ex r) <> 0) /\ (r + 1 < size -> nsa (ex r) <> 0))).
Proof. exact completes_iff. Qed.
Print Assumptions C57_completes_iff.
(** which rank hangs: one that has something to send, next to one that has nothing for it *)
Theorem C57_hangs : forall size ex n s r, run n (start (exchange_all size (fun r => [ex r]))) s -> r + 1 < size ->
  (nsb (ex r) <> 0 \/ nsa (ex r) <> 0 -> nsb (ex (r + 1)) = 0 -> prog s r <> []) /\
  (nsb (ex (r + 1)) <> 0 \/ nsa (ex (r + 1)) <> 0 -> nsa (ex r) = 0 -> prog s (r + 1) <> []).
Proof. intros size ex n s r Rn L. split; intros A Z; [exact (starved_above size ex n s r Rn L A Z)|exact (starved_below size ex n s r Rn L A Z)]. Qed.
Print Assumptions C57_hangs.
(** two ranks, rank 1 has nothing to send in the first iteration (table b1): rank 0 can complete its first exchange with the points rank 1 sends in
    the second iteration (table b2), and rank 1 completes its second exchange with rank 0's points of the first (table a1) *)
Theorem C57_mixes_iterations : forall a1 a2 b1 b2, nsa a1 <> 0 -> nsb b1 = 0 -> nsa b1 = 0 -> nsb b2 <> 0 ->
  exists n s, run n (start (exchange_all 2 (fun r => match r with 0 => [a1; a2] | _ => [b1; b2] end))) s /\
    prog s 0 = exchange 2 0 a2 /\ prog s 1 = [] /\
    log s 0 = [(1, firstn (nsb b2) (rows b2))] /\ log s 1 = [(0, firstn (nsa a1) (skipn (nsb a1) (rows a1)))].
Proof. exact iterations_mixed. Qed.
Print Assumptions C57_mixes_iterations.
Example C57_case : let a := {| nsb := 0; nsa := 1; rows := [[0%R; 1%R]] |} in let b := {| nsb := 0; nsa := 0; rows := [] |} in
  ~ exists n s, run n (start (exchange_all 2 (fun r => [match r with 0 => a | _ => b end]))) s /\ finished s.
Proof.
  intros a b H. apply (C57_completes_iff 2 (fun r => match r with 0 => a | _ => b end)) in H; [|lia]. destruct H as [H|H].
  - destruct (H 0 ltac:(lia)) as [_ K]. discriminate.
  - destruct (H 1 ltac:(lia)) as [K _]. apply (K ltac:(lia)). reflexivity.
Qed.

(** ---- C58: mesh_of r is the mesh rank r sends (after fix_mesh), with valid indices ---- *)
Theorem C58_aggregate : forall size mesh_of, 1 <= size ->
  (forall r c v, r < size -> In c (snd (mesh_of r)) -> In v c -> v < length (fst (mesh_of r))) ->
  forall n s, run n (start (fun r => aggregate size r (mesh_of r))) s ->
  n <= 4 * (size - 1) /\ (~ finished s -> exists s', step false s s') /\
  (finished s ->
    let out := aggregated (mesh_of 0) (reduce_sum size (fun r => length (fst (mesh_of r)))) (log s 0) in
    fst out = flat_map (fun r => fst (mesh_of r)) (seq 0 size) /\
    length (snd out) = list_sum (map (fun r => length (snd (mesh_of r))) (seq 0 size)) /\
    (forall c v, In c (snd out) -> In v c -> v < length (fst out)) /\
    forall r k, r < size -> k < length (snd (mesh_of r)) ->
      map (fun v => nth v (fst out) []) (nth (list_sum (map (fun i => length (snd (mesh_of i))) (seq 0 r)) + k) (snd out) []) =
      map (fun v => nth v (fst (mesh_of r)) []) (nth k (snd (mesh_of r)) [])).
Proof.
  intros size mesh_of Hs V n s Rn.
  destruct (choreography _ _ _ (agg_distinct size mesh_of Hs) (agg_project size mesh_of Hs) n s Rn) as [L [P C]].
  rewrite (agg_len _ _ Hs) in L. split; [lia|]. split; [exact P|]. intros F out. destruct (C F) as [_ LG].
  assert (out = (flat_map (fun i => fst (mesh_of i)) (seq 0 size), flat_map (shifted mesh_of) (seq 0 size))) as EO.
  { unfold out. rewrite (LG 0). apply (aggregated_spec size mesh_of Hs). }
  assert (forall {A} (f : nat -> list A) l, length (flat_map f l) = list_sum (map (fun i => length (f i)) l)) as FL.
  { intros A f l. induction l as [|a l IH]; [reflexivity|]. cbn [flat_map]. rewrite app_length, IH. reflexivity. }
  rewrite EO. cbn [fst snd]. split; [reflexivity|]. split; [|split].
  - rewrite FL. f_equal. apply map_ext. intros i. unfold shifted. apply map_length.
  - intros c v Hc Hv. apply in_block in Hc. destruct Hc as [r [Lr Hc]]. unfold shifted in Hc. apply in_map_iff in Hc. destruct Hc as [c0 [<- Hc0]].
    apply in_map_iff in Hv. destruct Hv as [v0 [<- Hv0]]. pose proof (V r c0 v0 Lr Hc0 Hv0) as Lv.
    rewrite FL. replace size with (r + S (size - r - 1)) by lia. rewrite seq_app, map_app, list_sum_app. cbn [Nat.add seq map].
    change (list_sum (length (fst (mesh_of r)) :: map (fun i => length (fst (mesh_of i))) (seq (S r) (size - r - 1)))) with
      (length (fst (mesh_of r)) + list_sum (map (fun i => length (fst (mesh_of i))) (seq (S r) (size - r - 1)))).
    unfold off, plen. lia.
  - intros r k Lr Lk. assert (k < length (shifted mesh_of r)) as Lk' by (unfold shifted; rewrite map_length; exact Lk).
    replace (list_sum (map (fun i => length (snd (mesh_of i))) (seq 0 r))) with (list_sum (map (fun i => length (shifted mesh_of i)) (seq 0 r))) by (f_equal; apply map_ext; intros i; unfold shifted; apply map_length).
    rewrite (fm_nth (shifted mesh_of) [] r k size Lr Lk'). unfold shifted. rewrite (nth_map' (A:=list nat) (B:=list nat) _ _ k [] []) by exact Lk.
    rewrite map_map. apply map_ext_in. intros v Hv. apply corner_eq; [exact Lr|]. apply (V r (nth k (snd (mesh_of r)) []) v Lr); [apply nth_In; exact Lk|exact Hv].
Qed.
Print Assumptions C58_aggregate.
(** together with the cleaning each rank does first: rank 0 returns, up to the order of corners and snapping (k), exactly the cells of all ranks *)
Theorem C58_cells_of_all_ranks : forall uniqK uniqR k size (local clean : nat -> list (list R) * list row), 1 <= size -> uniq_ok uniqK -> uniq_ok uniqR ->
  (forall r, r < size -> exists ix, fix_mesh uniqK uniqR k (fst (local r)) (snd (local r)) true true = Ok (fst (clean r), snd (clean r), ix)) ->
  forall n s, run n (start (fun r => aggregate size r (clean r))) s -> finished s ->
  let out := aggregated (clean 0) (reduce_sum size (fun r => length (fst (clean r)))) (log s 0) in
  let keys (m : list (list R) * list row) c := map (fun v => k (nth v (fst m) [])) c in
  (forall r c, r < size -> In c (snd (local r)) -> exists c', In c' (snd out) /\ Permutation (keys out c') (keys (local r) c)) /\
  (forall c', In c' (snd out) -> exists r c, r < size /\ In c (snd (local r)) /\ Permutation (keys out c') (keys (local r) c)) /\
  (forall v, v < length (fst out) -> exists c', In c' (snd out) /\ In v c').
Proof.
  intros uniqK uniqR k size local clean Hs HK HR HC n s Rn F out keys.
  assert (forall r c v, r < size -> In c (snd (clean r)) -> In v c -> v < length (fst (clean r))) as V.
  { intros r c v Lr Hc Hv. destruct (HC r Lr) as [ix E]. destruct (C33_fix_mesh_clean _ _ _ _ _ _ _ _ _ _ HK HR E) as [A _]. apply (A c v Hc Hv). }
  destruct (C58_aggregate size clean Hs V n s Rn) as [_ [_ G]]. destruct (G F) as [GP [GL [GV GC]]]. fold out in GP, GL, GV, GC.
  destruct (choreography _ _ _ (agg_distinct size clean Hs) (agg_project size clean Hs) n s Rn) as [_ [_ C]]. destruct (C F) as [_ LG].
  assert (out = (flat_map (fun i => fst (clean i)) (seq 0 size), flat_map (shifted clean) (seq 0 size))) as EO.
  { unfold out. rewrite (LG 0). apply (aggregated_spec size clean Hs). }
  assert (forall r c, r < size -> In c (snd (clean r)) -> keys out (map (fun v => v + off clean r) c) = keys (clean r) c) as KE.
  { intros r c Lr Hc. unfold keys. rewrite map_map. apply map_ext_in. intros v Hv. f_equal. rewrite EO. cbn [fst]. apply corner_eq; [exact Lr|]. apply (V r c v Lr Hc Hv). }
  split; [|split].
  - intros r c Lr Hc. destruct (HC r Lr) as [ix E]. destruct (C33_fix_mesh_clean _ _ _ _ _ _ _ _ _ _ HK HR E) as [_ [_ [_ [D _]]]].
    destruct (D c Hc) as [c' [Hc' PM]]. exists (map (fun v => v + off clean r) c'). split.
    + rewrite EO. cbn [snd]. apply in_block. exists r. split; [exact Lr|]. unfold shifted. apply in_map. exact Hc'.
    + rewrite (KE r c' Lr Hc'). exact PM.
  - intros c' Hc'. rewrite EO in Hc'. cbn [snd] in Hc'. apply in_block in Hc'. destruct Hc' as [r [Lr Hc']]. unfold shifted in Hc'. apply in_map_iff in Hc'. destruct Hc' as [c0 [<- Hc0]].
    destruct (HC r Lr) as [ix E]. destruct (C33_fix_mesh_clean _ _ _ _ _ _ _ _ _ _ HK HR E) as [_ [_ [_ [_ [D _]]]]].
    destruct (D c0 Hc0) as [c [Hc PM]]. exists r, c. split; [exact Lr|]. split; [exact Hc|]. rewrite (KE r c0 Lr Hc0). exact PM.
  - intros v Lv. rewrite EO in Lv. cbn [fst] in Lv.
    assert (exists r v0, r < size /\ v0 < length (fst (clean r)) /\ v = v0 + off clean r) as [r [v0 [Lr [Lv0 ->]]]].
    { clear - Lv. assert (forall a m v, v < length (flat_map (fun i => fst (clean i)) (seq a m)) ->
         exists r v0, a <= r < a + m /\ v0 < length (fst (clean r)) /\ v = v0 + list_sum (map (plen clean) (seq a (r - a)))) as G.
      { intros a m. revert a. induction m as [|m IH]; intros a w L; [cbn in L; lia|]. cbn [seq flat_map] in L. rewrite app_length in L.
        destruct (Nat.lt_ge_cases w (length (fst (clean a)))) as [L1|L1].
        - exists a, w. split; [lia|]. split; [exact L1|]. rewrite Nat.sub_diag. cbn. lia.
        - destruct (IH (S a) (w - length (fst (clean a))) ltac:(lia)) as [r [v0 [Lr [Lv0 E]]]]. exists r, v0. split; [lia|]. split; [exact Lv0|].
          replace (r - a) with (S (r - S a)) by lia. cbn [seq map]. unfold list_sum in *. cbn [fold_right]. unfold plen at 1. lia. }
      destruct (G 0 size v Lv) as [r [v0 [Lr [Lv0 E]]]]. exists r, v0. split; [lia|]. split; [exact Lv0|]. rewrite Nat.sub_0_r in E. exact E. }
    destruct (HC r Lr) as [ix E]. destruct (C33_fix_mesh_clean _ _ _ _ _ _ _ _ _ _ HK HR E) as [_ [_ [_ [_ [_ [_ U]]]]]].
    destruct (U eq_refl v0 Lv0) as [c [Hc Hv]]. exists (map (fun v => v + off clean r) c). split.
    + rewrite EO. cbn [snd]. apply in_block. exists r. split; [exact Lr|]. unfold shifted. apply in_map. exact Hc.
    + apply in_map_iff. exists v0. split; [reflexivity|exact Hv].
Qed.
Print Assumptions C58_cells_of_all_ranks.
(** two ranks with one triangle each *)
Example C58_case : let m := fun r => match r with 0 => ([[0;0];[1;0];[0;1]]%R, [[0;1;2]]) | _ => ([[5;0];[6;0];[5;1]]%R, [[0;1;2]]) end in
  exists n s, run n (start (fun r => aggregate 2 r (m r))) s /\ finished s /\
    aggregated (m 0) (reduce_sum 2 (fun r => length (fst (m r)))) (log s 0) = ([[0;0];[1;0];[0;1];[5;0];[6;0];[5;1]]%R, [[0;1;2];[3;4;5]]).
Proof.
  intros m. destruct (choreography_completes _ _ _ (agg_distinct 2 m ltac:(lia)) (agg_project 2 m ltac:(lia)) 0 _ (run_nil _)) as [k [s [Rn F]]].
  exists k, s. split; [exact Rn|]. split; [exact F|]. destruct (choreography _ _ _ (agg_distinct 2 m ltac:(lia)) (agg_project 2 m ltac:(lia)) k s Rn) as [_ [_ C]]. destruct (C F) as [_ LG].
  rewrite (LG 0). reflexivity.
Qed.

(** ---- C77: deleting the ghost vertices after a parallel iteration; vertices are the rank's own ones followed by the inserted ghosts ---- *)
Theorem C77_own_vertices_kept : forall (own ghosts : list (list R)), ghosts <> [] -> delete_ghosts (own ++ ghosts) (length ghosts) = own.
Proof.
  intros own ghosts NE. unfold delete_ghosts. destruct ghosts as [|g gs]; [congruence|]. cbn [length Nat.eqb]. rewrite app_length.
  replace (length own + length (g :: gs) - S (length gs)) with (length own) by (cbn [length]; lia). rewrite firstn_app, Nat.sub_diag, firstn_all. cbn. apply app_nil_r.
Qed.
Print Assumptions C77_own_vertices_kept.
(** received points that coincide with vertices already there are not inserted again: as many own vertices are lost *)
Theorem C77_duplicates_lose_vertices : forall (own inserted : list (list R)) received, 0 < received -> length inserted <= received ->
  delete_ghosts (own ++ inserted) received = firstn (length own - (received - length inserted)) own.
Proof.
  intros own ins rc P L. unfold delete_ghosts. destruct (Nat.eqb_spec rc 0); [lia|]. rewrite app_length, firstn_app.
  replace (length own + length ins - rc) with (length own - (rc - length ins)) by lia.
  replace (length own - (rc - length ins) - length own) with 0 by lia. cbn. apply app_nil_r.
Qed.
Print Assumptions C77_duplicates_lose_vertices.
(** a rank with nothing to send returns at once from the exchange; the length of its empty result is 1, and it deletes its own last vertex *)
Theorem C77_idle_rank_loses_vertex : forall ex (own : list (list R)) log, nsb ex = 0 -> nsa ex = 0 -> own <> [] ->
  delete_ghosts own (returned_len ex log) = removelast own.
Proof.
  intros ex own lg H1 H2 NE. unfold returned_len. rewrite H1, H2. cbn [Nat.eqb andb]. unfold delete_ghosts. cbn [Nat.eqb].
  rewrite (removelast_firstn_len own). f_equal. lia.
Qed.
Print Assumptions C77_idle_rank_loses_vertex.
(** a count of zero would delete every vertex (the slice [-0:] is the whole array); the idle rank's count is 1, not 0 *)
Theorem C77_zero_count_loses_all : forall (own : list (list R)), delete_ghosts own 0 = [] /\ forall ex lg, nsb ex = 0 -> nsa ex = 0 -> returned_len ex lg = 1.
Proof. intros own. split; [reflexivity|]. intros ex lg H1 H2. unfold returned_len. rewrite H1, H2. reflexivity. Qed.
Print Assumptions C77_zero_count_loses_all.
Example C77_case : delete_ghosts [[0;0];[1;0];[0;1];[5;5]]%R 1 = [[0;0];[1;0];[0;1]]%R /\
  delete_ghosts [[0;0];[1;0];[0;1]]%R (returned_len {| nsb := 0; nsa := 0; rows := [] |} []) = [[0;0];[1;0]]%R.
Proof. split; reflexivity. Qed.
