(** C33-C42, C51: mesh clean-up and topology.  Entities are rows of vertex numbers, points are rows of coordinates.
    [uniq_ok]: np.unique, in whatever order it returns the distinct rows. *)
From Coq Require Import List ZArith Reals Bool Arith Lia Lra Permutation.
From Flocq Require Import Core.
From Verif Require Import Model.Base Model.SDF Model.Simplex Model.Mesh Spec.Geom Spec.MeshTopo Proofs.ListAux Proofs.MeshAux Proofs.VtoeProofs
  Proofs.EdgeProofs Proofs.TopoProofs Proofs.WindProofs Proofs.FixMeshProofs Proofs.SDFPrim Proofs.ExternalProofs Proofs.SimplexProofs Proofs.DeleteProofs.
Import ListNotations.

Definition uniqR0 : list row -> list row := nodup row_dec.
Definition uniqK0 : list key -> list key := nodup key_dec.
Lemma uniqR0_ok : uniq_ok uniqR0. Proof. intros l. split; [apply NoDup_nodup|]. intros x. apply nodup_In. Qed.
Lemma uniqK0_ok : uniq_ok uniqK0. Proof. intros l. split; [apply NoDup_nodup|]. intros x. apply nodup_In. Qed.

(** ---- C33: fix_mesh; [k q] = bytes of the snapped coordinates of q ---- *)
Theorem C33_fix_mesh_clean : forall uniqK uniqR k p t delete_unused fix_orientation p' t' jx,
  uniq_ok uniqK -> uniq_ok uniqR ->
  fix_mesh uniqK uniqR k p t delete_unused fix_orientation = Ok (p', t', jx) ->
  let keys q r := map (fun v => k (nth v q [])) r in
  (forall r v, In r t' -> In v r -> v < length p') /\
  (forall q, In q p' -> In q p) /\
  NoDup (map k p') /\
  (forall r, In r t -> exists r', In r' t' /\ Permutation (keys p' r') (keys p r)) /\
  (forall r', In r' t' -> exists r, In r t /\ Permutation (keys p' r') (keys p r)) /\
  (forall i j, i < length t' -> j < length t' -> i <> j -> ~ Permutation (nth i t' []) (nth j t' [])) /\
  (delete_unused = true -> forall v, v < length p' -> exists r, In r t' /\ In v r).
Proof.
  intros uniqK uniqR k p t del ori p' t' jx HK HR H keys.
  destruct (fix_mesh_clean uniqK uniqR k HK HR p t (fix_mesh_valid _ _ _ _ _ _ _ _ H) del ori p' t' jx H) as [[A B C D E F] G].
  repeat split; assumption.
Qed.
Print Assumptions C33_fix_mesh_clean.
(** fix_mesh succeeds exactly on meshes with a vertex and without dangling vertex numbers *)
Theorem C33_fix_mesh_total : forall uniqK uniqR k p t delete_unused fix_orientation,
  (exists out, fix_mesh uniqK uniqR k p t delete_unused fix_orientation = Ok out) <-> p <> [] /\ forall r v, In r t -> In v r -> v < length p.
Proof.
  intros. rewrite <- valid_rows_spec. split.
  - intros [out H]. split; [|apply (fix_mesh_valid _ _ _ _ _ _ _ _ H)]. intros ->. discriminate H.
  - intros [N H]. destruct (fix_mesh_total uniqK uniqR k p t H delete_unused fix_orientation N) as [p' [t' [jx E]]]. eexists; exact E.
Qed.
Print Assumptions C33_fix_mesh_total.
Example C33_case : forall r v, In r [[0;1;2];[3;1;2]] -> In v r -> v < length [[0;0];[1;0];[0;1];[0;0];[5;5]]%R.
Proof. intros r v [<- | [<- | []]] Hv; cbn in *; lia. Qed.

(** ---- C34 ---- *)
Theorem C34_orientation : forall uniqK uniqR k p t delete_unused p' t' jx,
  fix_mesh uniqK uniqR k p t delete_unused true = Ok (p', t', jx) ->
  (forall r, In r t' -> (0 <= simp_vol (map (fun v => nth v p' []) r))%R) /\
  exists t0, fix_mesh uniqK uniqR k p t delete_unused false = Ok (p', t0, jx) /\ length t' = length t0 /\
    forall i, i < length t0 -> Permutation (nth i t' []) (nth i t0 []) /\
      Rabs (simp_vol (map (fun v => nth v p' []) (nth i t' []))) = Rabs (simp_vol (map (fun v => nth v p' []) (nth i t0 []))).
Proof.
  intros uniqK uniqR k p t del p' t' jx H.
  destruct (fix_mesh_orient uniqK uniqR k p t (fix_mesh_valid _ _ _ _ _ _ _ _ H) del p' t' jx H) as [t0 [E ->]]. split.
  - intros r Hr. apply in_map_iff in Hr. destruct Hr as [r0 [<- _]]. apply orient_vol.
  - exists t0. split; [exact E|]. split; [apply map_length|]. intros i Hi. rewrite (nth_map' (A:=row) (B:=row) _ _ _ [] []) by exact Hi.
    split; [apply orient_perm|]. apply abs_vol_perm, Permutation_map, orient_perm.
Qed.
Print Assumptions C34_orientation.
(** when snapping only merges equal points the volumes are those of the input entities *)
Theorem C34_volumes_preserved : forall uniqK uniqR k p t delete_unused fix_orientation p' t' jx,
  uniq_ok uniqK -> uniq_ok uniqR -> (forall q q', In q p -> In q' p -> k q = k q' -> q = q') ->
  fix_mesh uniqK uniqR k p t delete_unused fix_orientation = Ok (p', t', jx) ->
  forall r', In r' t' -> exists r, In r t /\
    Rabs (simp_vol (map (fun v => nth v p' []) r')) = Rabs (simp_vol (map (fun v => nth v p []) r)).
Proof.
  intros uniqK uniqR k p t del ori p' t' jx HK HR INJ H r' Hr'.
  destruct (fix_mesh_clean uniqK uniqR k HK HR p t (fix_mesh_valid _ _ _ _ _ _ _ _ H) del ori p' t' jx H) as [[A B C D E F] _].
  destruct (E r' Hr') as [r [Hr P]]. exists r. split; [exact Hr|]. apply abs_vol_perm. unfold row_keys in P.
  pose proof (proj1 (valid_rows_spec _ _) (fix_mesh_valid _ _ _ _ _ _ _ _ H)) as V.
  rewrite <- (map_map (fun v => nth v p' []) k), <- (map_map (fun v => nth v p []) k) in P.
  apply (perm_map_inj k) in P; [exact P|]. intros x y Hx Hy. apply INJ.
  - apply in_map_iff in Hx. destruct Hx as [v [<- Hv]]. apply B, nth_In, (A r' v Hr' Hv).
  - apply in_map_iff in Hy. destruct Hy as [v [<- Hv]]. apply nth_In, (V r v Hr Hv).
Qed.
Print Assumptions C34_volumes_preserved.
(** a clockwise triangle is turned, a tetrahedron likewise *)
Example C34_case : orient [[0;0];[1;0];[0;1]]%R [0;2;1] = [2;0;1] /\ orient [[0;0;0];[1;0;0];[0;1;0];[0;0;1]]%R [0;2;1;3] = [2;0;1;3].
Proof.
  split; unfold orient, Rltb; destruct (Rlt_dec _ _) as [H|H]; try reflexivity; exfalso; apply H; cbn; lra.
Qed.

(** ---- C35 ---- *)
Theorem C35_map_without_delete : forall uniqK uniqR k p t fix_orientation p' t' jx, uniq_ok uniqK ->
  fix_mesh uniqK uniqR k p t false fix_orientation = Ok (p', t', jx) ->
  length jx = length p /\ forall v, v < length p -> nth v jx 0 < length p' /\ k (nth (nth v jx 0) p' []) = k (nth v p []).
Proof.
  intros uniqK uniqR k p t ori p' t' jx HK H.
  exact (fix_mesh_jx uniqK uniqR k HK p t (fix_mesh_valid _ _ _ _ _ _ _ _ H) ori p' t' jx H).
Qed.
Print Assumptions C35_map_without_delete.
(** with delete_unused it is the connectivity before orientation, flattened *)
Theorem C35_with_delete : forall uniqK uniqR k p t fix_orientation p' t' jx,
  fix_mesh uniqK uniqR k p t true fix_orientation = Ok (p', t', jx) ->
  exists t0, fix_mesh uniqK uniqR k p t true false = Ok (p', t0, jx) /\ jx = concat t0.
Proof.
  intros uniqK uniqR k p t ori p' t' jx H.
  destruct (fix_mesh_jx_unused uniqK uniqR k p t (fix_mesh_valid _ _ _ _ _ _ _ _ H) ori p' t' jx H) as [t0 [A [B _]]]. eauto.
Qed.
Print Assumptions C35_with_delete.
Theorem C35_no_map_refuted : exists p t, (forall r v, In r t -> In v r -> v < length p) /\
  forall uniqK uniqR k fix_orientation p' t' jx, uniq_ok uniqK -> uniq_ok uniqR ->
   fix_mesh uniqK uniqR k p t true fix_orientation = Ok (p', t', jx) -> length jx <> length p.
Proof.
  exists [[0;0];[1;0];[0;1];[1;1]]%R, [[0;1;2]]. split; [intros r v [<- | []] Hv; cbn in *; lia|].
  intros uniqK uniqR k ori p' t' jx HK HR H.
  destruct (C35_with_delete uniqK uniqR k _ _ ori p' t' jx H) as [t0 [E ->]].
  destruct (fix_mesh_clean uniqK uniqR k HK HR _ _ (fix_mesh_valid _ _ _ _ _ _ _ _ E) true false p' t0 _ E) as [[A B C D F G] _].
  assert (forall r, In r t0 -> length r = 3) as L3.
  { intros r Hr. destruct (F r Hr) as [r0 [I0 P]]. destruct I0 as [<- | []]. apply Permutation_length in P. unfold row_keys in P. rewrite !map_length in P. exact P. }
  assert (exists m, length (concat t0) = 3 * m) as [m Hm].
  { clear - L3. induction t0 as [|r t IH]; [exists 0; reflexivity|]. destruct IH as [m Hm]; [intros; apply L3; right; assumption|].
    exists (S m). cbn. rewrite app_length, Hm, (L3 r (or_introl eq_refl)). lia. }
  rewrite Hm. cbn [length]. lia.
Qed.
Print Assumptions C35_no_map_refuted.

(** ---- C36: every rearrangement [ve] of the (vertex, entity) pairs sorted by vertex that argsort may produce ---- *)
Theorem C36_table_right : forall t n ve vtoe ptr,
  Permutation ve (ve_pairs t) -> ascending (map fst ve) -> vtoe_result ve = (vtoe, ptr) ->
  (forall v, v < n <-> exists r, In r t /\ In v r) -> 0 < n ->
  length ptr = S n /\
  forall v e, v < n -> count_occ Nat.eq_dec (slice vtoe (nth v ptr 0) (nth (S v) ptr 0)) e = count_occ Nat.eq_dec (nth e t []) v.
Proof. exact vtoe_all_used. Qed.
Print Assumptions C36_table_right.
(** in general slot number j belongs to the j-th smallest used vertex *)
Theorem C36_slots_in_general : forall t ve us vtoe ptr,
  Permutation ve (ve_pairs t) -> ascending (map fst ve) -> vtoe_result ve = (vtoe, ptr) ->
  increasing us -> (forall v, In v us <-> exists r, In r t /\ In v r) -> us <> [] ->
  length ptr = S (length us) /\
  forall j e, j < length us -> count_occ Nat.eq_dec (slice vtoe (nth j ptr 0) (nth (S j) ptr 0)) e = count_occ Nat.eq_dec (nth e t []) (nth j us 0).
Proof. intros t ve us vtoe ptr A B C D. apply (vtoe_general t ve us vtoe ptr A B C), increasing_ss, D. Qed.
Print Assumptions C36_slots_in_general.
Theorem C36_unused_vertex_shifts : forall t ve vtoe ptr u w,
  Permutation ve (ve_pairs t) -> ascending (map fst ve) -> vtoe_result ve = (vtoe, ptr) ->
  (forall r, In r t -> ~ In u r) -> (exists r, In r t /\ In w r) -> u < w ->
  exists v e, S v < length ptr /\ In e (slice vtoe (nth v ptr 0) (nth (S v) ptr 0)) /\ ~ In v (nth e t []).
Proof. exact vtoe_unused. Qed.
Print Assumptions C36_unused_vertex_shifts.
(** two triangles with a common edge; and the same mesh with vertex 1 unused *)
Example C36_case : 
  (let ve := [(0,0);(1,1);(1,0);(2,0);(2,1);(3,1)] in let t := [[0;1;2];[3;2;1]] in
   Permutation ve (ve_pairs t) /\ ascending (map fst ve) /\ slice (fst (vtoe_result ve)) 1 3 = [1;0] /\ forall v, v < 4 <-> exists r, In r t /\ In v r) /\
  (let ve := [(0,0);(2,0);(3,0)] in Permutation ve (ve_pairs [[0;2;3]]) /\ vtoe_result ve = ([0;0;0],[0;1;2;3]) /\ slice [0;0;0] 1 2 = [0]).
Proof.
  split; [split; [|split; [cbn; lia|split; [reflexivity|]]]|].
  - cbn. apply perm_skip. etransitivity; [apply perm_swap|]. apply perm_skip. etransitivity; [apply perm_swap|]. apply perm_skip.
    etransitivity; [|apply perm_swap]. etransitivity; [apply (Permutation_cons_append [(2,1);(3,1)])|]. cbn. 
    change ([(2,1);(3,1);(1,1)]) with ((2,1) :: [(3,1);(1,1)]). reflexivity.
  - intros v. split.
    + intros H. destruct v as [|[|[|[|v]]]]; [exists [0;1;2]|exists [0;1;2]|exists [0;1;2]|exists [3;2;1]|lia]; cbn; tauto.
    + intros [r [[<- | [<- | []]] Hv]]; cbn in Hv; lia.
  - split; [reflexivity|]. split; reflexivity.
Qed.

(** ---- C37 ---- *)
Theorem C37_edges_complete : forall dim t, dim = 2 \/ dim = 3 -> (forall r, In r t -> length r = S dim) ->
  (forall e, In e (get_edges dim t) -> exists r a b, In r t /\ edge_of r a b /\ e = [a; b]) /\
  (forall r a b, In r t -> edge_of r a b -> In [a; b] (get_edges dim t) \/ In [b; a] (get_edges dim t)).
Proof. exact get_edges_complete. Qed.
Print Assumptions C37_edges_complete.
(** the edges whose forces are computed: unique_edges(_get_edges(t)) *)
Theorem C37_unique_edges : forall dim t, dim = 2 \/ dim = 3 -> (forall r, In r t -> length r = S dim) ->
  let es := unique_edges (gen_edges dim t) in
  pairs_increasing es /\ NoDup es /\ forall a b, In (a, b) es <-> a <= b /\ exists r, In r t /\ edge_of r a b.
Proof. exact mesh_unique_edges. Qed.
Print Assumptions C37_unique_edges.
Example C37_case : unique_edges (gen_edges 3 [[3;1;0;2];[4;1;0;3]]) = [(0,1);(0,2);(0,3);(0,4);(1,2);(1,3);(1,4);(2,3);(3,4)].
Proof. reflexivity. Qed.

(** ---- C38 ---- *)
Theorem C38_boundary_edges : forall uniq t, uniq_ok uniq -> (forall r, In r t -> simplex 3 r) ->
  NoDup (get_boundary_edges uniq 2 t) /\
  forall f, In f (get_boundary_edges uniq 2 t) <-> increasing f /\ length f = 2 /\ entities_on f t = 1.
Proof.
  intros uniq t HU HT. split; [apply rows_with_count_nodup, HU|]. intros f. apply boundary_edges_in; assumption.
Qed.
Print Assumptions C38_boundary_edges.
Theorem C38_no_loose_ends : forall uniq t v, uniq_ok uniq -> (forall r, In r t -> simplex 3 r) ->
  (forall f, increasing f -> length f = 2 -> entities_on f t <= 2) ->
  Nat.Even (degree v (get_boundary_edges uniq 2 t)).
Proof. intros uniq t v HU HT HB. destruct (boundary_even uniq t v HU HT HB) as [k Hk]. exists k. exact Hk. Qed.
Print Assumptions C38_no_loose_ends.

(** edges of a mesh with at most two triangles on each edge, decided by computation *)
Lemma edge_bound_check t n : (forall r v, In r t -> In v r -> v < n) ->
  forallb (fun a => forallb (fun b => (b <=? a) || (entities_on [a; b] t <=? 2)) (seq 0 n)) (seq 0 n) = true ->
  forall f, increasing f -> length f = 2 -> entities_on f t <= 2.
Proof.
  intros HV HC f HI HL. destruct (row2 f HL) as [a [b ->]]. destruct HI as [Lab _].
  destruct (Nat.lt_ge_cases b n) as [Lb|Lb].
  - rewrite forallb_forall in HC. specialize (HC a ltac:(apply in_seq; lia)). rewrite forallb_forall in HC. specialize (HC b ltac:(apply in_seq; lia)).
    apply orb_true_iff in HC. destruct HC as [HC|HC]; apply Nat.leb_le in HC; lia.
  - unfold entities_on. assert (filter (fun r => forallb (has r) [a; b]) t = []) as E; [|rewrite E; cbn; lia].
    destruct (filter _ t) as [|r l] eqn:F; [reflexivity|]. exfalso. assert (In r (filter (fun r => forallb (has r) [a; b]) t)) as I by (rewrite F; left; reflexivity).
    apply filter_In in I. destruct I as [Ir Ib]. rewrite forallb_forall in Ib. specialize (Ib b ltac:(cbn; tauto)). apply has_in in Ib. specialize (HV r b Ir Ib). lia.
Qed.
(** a square with a square hole: two boundary loops *)
Definition annulus : list row := [[0;1;4];[1;5;4];[1;2;5];[2;6;5];[2;3;6];[3;7;6];[3;0;7];[0;4;7]].
Lemma annulus_ok : (forall r, In r annulus -> simplex 3 r) /\ (forall f, increasing f -> length f = 2 -> entities_on f annulus <= 2).
Proof.
  split.
  - intros r H. cbn in H. repeat (destruct H as [<- | H]; [split; [reflexivity|repeat (apply NoDup_cons; [cbn; lia|]); apply NoDup_nil]|]). destruct H.
  - apply (edge_bound_check annulus 8); [|reflexivity]. intros r v Hr Hv. cbn in Hr. repeat (destruct Hr as [<- | Hr]; [cbn in Hv; lia|]). destruct Hr.
Qed.
Example C38_case : get_boundary_edges uniqR0 2 annulus = [[0;1];[4;5];[1;2];[5;6];[2;3];[6;7];[0;3];[4;7]].
Proof. reflexivity. Qed.

(** ---- C39: winding the boundary of a triangle mesh ---- *)
Theorem C39_terminates_with_a_trail : forall uniq t, uniq_ok uniq -> (forall r, In r t -> simplex 3 r) -> get_boundary_edges uniq 2 t <> [] ->
  let be := get_boundary_edges uniq 2 t in
  exists res vs, get_winded be = Some res /\ NoDup res /\ incl res be /\ nth_error res 0 = nth_error be 0 /\ walks vs res.
Proof.
  intros uniq t HU HT NE be. destruct (winded_spec be NE (rows_with_count_nodup _ _ _ HU) (fun e He => bedge_simplex uniq t e HU HT He))
    as [res [vs H]]. exists res, vs. tauto.
Qed.
Print Assumptions C39_terminates_with_a_trail.
Theorem C39_trail_is_closed : forall uniq t, uniq_ok uniq -> (forall r, In r t -> simplex 3 r) -> get_boundary_edges uniq 2 t <> [] ->
  (forall f, increasing f -> length f = 2 -> entities_on f t <= 2) ->
  exists res vs, get_winded (get_boundary_edges uniq 2 t) = Some res /\ walks vs res /\ last vs 0 = nth 0 vs 0.
Proof.
  intros uniq t HU HT NE HB. set (be := get_boundary_edges uniq 2 t) in *.
  assert (forall e, In e be -> simplex 2 e) as HS by (intros e He; apply (bedge_simplex uniq t e HU HT He)).
  pose proof (rows_with_count_nodup uniq 1 (map sort_nat (get_edges 2 t)) HU : NoDup be) as ND.
  destruct (winded_spec be NE ND HS) as [res [vs [A [B [C [D [E [F G]]]]]]]]. exists res, vs. split; [exact A|]. split; [exact E|].
  apply (winded_closed be res vs); try assumption. intros v. apply boundary_even; assumption.
Qed.
Print Assumptions C39_trail_is_closed.
(** when every boundary vertex meets two boundary edges: exactly the loop of the first boundary edge *)
Theorem C39_one_whole_loop : forall uniq t e0, uniq_ok uniq -> (forall r, In r t -> simplex 3 r) ->
  let be := get_boundary_edges uniq 2 t in
  (forall v e, In e be -> In v e -> degree v be = 2) -> nth_error be 0 = Some e0 ->
  exists res, get_winded be = Some res /\ NoDup res /\ forall e, In e res <-> joined be e0 e.
Proof.
  intros uniq t e0 HU HT be HD H0. assert (be <> []) as NE by (intros E; rewrite E in H0; discriminate).
  assert (forall e, In e be -> simplex 2 e) as HS by (intros e He; apply (bedge_simplex uniq t e HU HT He)).
  pose proof (rows_with_count_nodup uniq 1 (map sort_nat (get_edges 2 t)) HU : NoDup be) as ND.
  destruct (winded_spec be NE ND HS) as [res [vs [A [B [C [D [E [F G]]]]]]]]. exists res. split; [exact A|]. split; [exact B|].
  apply (winded_component be res vs e0); try assumption. congruence.
Qed.
Print Assumptions C39_one_whole_loop.
(** every boundary vertex of the annulus meets two boundary edges *)
Example C39_case : let be := get_boundary_edges uniqR0 2 annulus in
  uniq_ok uniqR0 /\ (forall r, In r annulus -> simplex 3 r) /\ (forall v e, In e be -> In v e -> degree v be = 2) /\ nth_error be 0 = Some [0;1].
Proof.
  assert (get_boundary_edges uniqR0 2 annulus = [[0;1];[4;5];[1;2];[5;6];[2;3];[6;7];[0;3];[4;7]]) as E by (vm_compute; reflexivity). cbv zeta. rewrite E.
  split; [exact uniqR0_ok|]. split; [apply annulus_ok|]. split; [|reflexivity].
  intros v e He Hv. cbn in He. repeat (destruct He as [<- | He]; [cbn in Hv; repeat (destruct Hv as [<- | Hv]; [reflexivity|]); destruct Hv|]). destruct He.
Qed.
(** so the boundary of a hole is not returned *)
Theorem C39_hole_is_missing_refuted : exists t, (forall r, In r t -> simplex 3 r) /\
  (forall f, increasing f -> length f = 2 -> entities_on f t <= 2) /\
  exists res, get_winded (get_boundary_edges uniqR0 2 t) = Some res /\
    exists e, In e (get_boundary_edges uniqR0 2 t) /\ ~ In e res.
Proof.
  exists annulus. split; [apply annulus_ok|]. split; [apply annulus_ok|]. eexists. split; [vm_compute; reflexivity|].
  exists [4;5]. split; [vm_compute; tauto|]. cbn. intuition discriminate.
Qed.
Print Assumptions C39_hole_is_missing_refuted.

(** ---- C40 ---- *)
Theorem C40_boundary_facets : forall uniq t, uniq_ok uniq -> (forall r, In r t -> simplex 4 r) ->
  NoDup (get_boundary_facets uniq t) /\
  forall f, In f (get_boundary_facets uniq t) <-> increasing f /\ length f = 3 /\ entities_on f t = 1.
Proof.
  intros uniq t HU HT. split; [apply rows_with_count_nodup, HU|]. intros f. apply boundary_facets_in; assumption.
Qed.
Print Assumptions C40_boundary_facets.
Theorem C40_boundary_vertices : forall uniq dim t, dim = 2 \/ dim = 3 -> uniq_ok uniq -> (forall r, In r t -> simplex (S dim) r) ->
  increasing (get_boundary_vertices uniq dim t) /\
  forall v, In v (get_boundary_vertices uniq dim t) <-> exists f, increasing f /\ length f = dim /\ entities_on f t = 1 /\ In v f.
Proof. exact boundary_vertices_spec. Qed.
Print Assumptions C40_boundary_vertices.
Theorem C40_boundary_entities : forall uniq dim t ve n, dim = 2 \/ dim = 3 -> uniq_ok uniq -> (forall r, In r t -> simplex (S dim) r) ->
  Permutation ve (ve_pairs t) -> ascending (map fst ve) -> (forall v, v < n <-> exists r, In r t /\ In v r) -> 0 < n ->
  increasing (get_boundary_entities uniq dim t ve) /\
  forall e, In e (get_boundary_entities uniq dim t ve) <->
    e < length t /\ exists v f, In v (nth e t []) /\ In v f /\ increasing f /\ length f = dim /\ entities_on f t = 1.
Proof.
  intros uniq dim t ve n D HU HT HP HA HI Hn. destruct (boundary_entities_spec uniq dim t ve n D HU HT HP HA HI Hn) as [A B].
  split; [exact A|]. intros e. split.
  - intros H. pose proof (proj1 (proj1 (B e) H)) as L. split; [exact L|]. apply (bele_touches uniq dim t ve n D HU HT HP HA HI Hn e L), H.
  - intros [L H]. apply (bele_touches uniq dim t ve n D HU HT HP HA HI Hn e L), H.
Qed.
Print Assumptions C40_boundary_entities.
(** two tetrahedra on a common face: six boundary facets, all five vertices, both entities *)
Example C40_case : get_boundary_facets uniqR0 [[0;1;2;3];[4;1;2;3]] = [[0;1;3];[0;2;3];[0;1;2];[1;3;4];[2;3;4];[1;2;4]] /\
  get_boundary_vertices uniqR0 3 [[0;1;2;3];[4;1;2;3]] = [0;1;2;3;4] /\
  get_boundary_entities uniqR0 3 [[0;1;2;3];[4;1;2;3]] [(0,0);(1,0);(1,1);(2,1);(2,0);(3,0);(3,1);(4,1)] = [0;1].
Proof. repeat split. Qed.

(** ---- C41: is_manifold on a triangle mesh in the plane ---- *)
Theorem C41_manifold_test : forall uniq t, uniq_ok uniq -> (forall r, In r t -> simplex 3 r) ->
  (forall f, increasing f -> length f = 2 -> entities_on f t <= 2) -> get_boundary_edges uniq 2 t <> [] ->
  exists b, is_manifold uniq 2 2 t = Ok b /\
   (b = true <-> forall v, (exists e, In e (get_boundary_edges uniq 2 t) /\ In v e) -> degree v (get_boundary_edges uniq 2 t) = 2).
Proof. exact manifold_spec. Qed.
Print Assumptions C41_manifold_test.
Theorem C41_no_boundary_raises : forall uniq dim ncol t, get_boundary_edges uniq dim t = [] -> is_manifold uniq dim ncol t = Err IndexError.
Proof. intros uniq dim ncol t H. unfold is_manifold. rewrite H. reflexivity. Qed.
Print Assumptions C41_no_boundary_raises.
(** an edge in four triangles and the verdict True *)
Theorem C41_multiple_edges_unnoticed_refuted : exists t, (forall r, In r t -> simplex 3 r) /\ entities_on [0;1] t = 4 /\ is_manifold uniqR0 2 2 t = Ok true.
Proof.
  exists [[0;1;2];[0;1;3];[0;1;4];[0;1;5];[0;4;5];[1;4;5]]. split; [|split; reflexivity].
  intros r H. cbn in H. repeat (destruct H as [<- | H]; [split; [reflexivity|repeat (apply NoDup_cons; [cbn; lia|]); apply NoDup_nil]|]). destruct H.
Qed.
Print Assumptions C41_multiple_edges_unnoticed_refuted.
(** the bow-tie (two triangles sharing one vertex) is rejected, the annulus accepted *)
Example C41_case : is_manifold uniqR0 2 2 [[0;1;2];[0;3;4]] = Ok false /\ is_manifold uniqR0 2 2 annulus = Ok true.
Proof. split; reflexivity. Qed.

(** ---- C42 ---- *)
Theorem C42_deletes_exactly_poor_boundary : forall uniqK uniqR k dim min_qual p t ve n p' t', uniq_ok uniqK -> uniq_ok uniqR -> dim = 2 \/ dim = 3 ->
  (forall r, In r t -> simplex (S dim) r) -> Permutation ve (ve_pairs t) -> ascending (map fst ve) ->
  (forall v, v < n <-> exists r, In r t /\ In v r) -> 0 < n ->
  delete_boundary_entities uniqK uniqR k dim min_qual p t ve = Ok (p', t') ->
  let keys q r := map (fun v => k (nth v q [])) r in
  let doomed e := (exists v f, In v (nth e t []) /\ In v f /\ increasing f /\ length f = dim /\ entities_on f t = 1) /\
    (exists q, simp_qual (map (fun v => nth v p []) (nth e t [])) = Some q /\ (q < min_qual)%R) in
  (forall e, e < length t -> ~ doomed e -> exists r', In r' t' /\ Permutation (keys p' r') (keys p (nth e t []))) /\
  (forall r', In r' t' -> exists e, e < length t /\ ~ doomed e /\ Permutation (keys p' r') (keys p (nth e t []))) /\
  (forall v, v < length p' -> exists r, In r t' /\ In v r).
Proof.
  intros uniqK uniqR k dim mq p t ve n p' t' HK HR D HT HP HA HI Hn H keys doomed.
  destruct (delete_spec uniqK uniqR k dim mq p t ve n p' t' HK HR D HT HP HA HI Hn H) as [kept [[V F N FW BW DI] [U KI]]].
  split; [|split; [|exact U]].
  - intros e L ND. apply FW, KI. exists e. split; [exact L|]. split; [reflexivity|exact ND].
  - intros r' Hr'. destruct (BW r' Hr') as [r [Hr P]]. apply KI in Hr. destruct Hr as [e [L [-> ND]]]. exists e. split; [exact L|]. split; [exact ND|exact P].
Qed.
Print Assumptions C42_deletes_exactly_poor_boundary.
(** it raises only for an empty vertex array or a vertex number that is out of range *)
Theorem C42_succeeds : forall uniqK uniqR k dim min_qual p t ve, p <> [] -> (forall r v, In r t -> In v r -> v < length p) ->
  exists p' t', delete_boundary_entities uniqK uniqR k dim min_qual p t ve = Ok (p', t').
Proof.
  intros uniqK uniqR k dim min_qual p t ve NE V. unfold delete_boundary_entities.
  destruct (proj2 (C33_fix_mesh_total uniqK uniqR k p (kept_rows (entity_qual p t) min_qual (get_boundary_entities uniqR dim t ve) t) true true)) as [[[p' t'] jx] E].
  - split; [exact NE|]. intros r v Hr Hv. unfold kept_rows in Hr. apply in_map_iff in Hr. destruct Hr as [e [<- He]].
    apply filter_In in He. destruct He as [He _]. apply in_seq in He. apply (V (nth e t [])); [apply nth_In; lia|exact Hv].
  - rewrite E. exists p', t'. reflexivity.
Qed.
Print Assumptions C42_succeeds.
(** with the default threshold: a poor entity on the new boundary remains, whatever the oracles *)
Theorem C42_poor_boundary_remains_refuted : exists p t,
  (forall r, In r t -> simplex 3 r) /\ (forall v, v < length p <-> exists r, In r t /\ In v r) /\
  (forall r, In r t -> (0 < simp_vol (map (fun v => nth v p []) r))%R) /\
  forall uniqK uniqR k ve, uniq_ok uniqK -> uniq_ok uniqR -> (forall q q', In q p -> In q' p -> k q = k q' -> q = q') ->
   Permutation ve (ve_pairs t) -> ascending (map fst ve) ->
   exists p' t', delete_boundary_entities uniqK uniqR k 2 (1/10)%R p t ve = Ok (p', t') /\
   exists e q, e < length t' /\ touches 2 t' e /\ simp_qual (map (fun v => nth v p' []) (nth e t' [])) = Some q /\ (q < 1/10)%R.
Proof.
  exists wp, wt. split; [exact wt_simplex|]. split; [exact wt_used|]. split.
  - intros r H. cbn in H. repeat (destruct H as [<- | H]; [cbn; lra|]). destruct H.
  - intros uniqK uniqR k ve HK HR HI HP HA. destruct (C42_succeeds uniqK uniqR k 2 (1/10)%R wp wt ve) as [p' [t' H]].
    { discriminate. } { intros r v Hr Hv. apply (proj2 (wt_used v)). exists r. tauto. }
    exists p', t'. split; [exact H|]. destruct (delete_leaves_poor uniqK uniqR k ve p' t' HK HR HI HP HA H) as [e [A [B [q C]]]]. exists e, q. tauto.
Qed.
Print Assumptions C42_poor_boundary_remains_refuted.

(** ---- C51: extent = (xmin, ymin, [zmin,] xmax, ymax, [zmax]) in binary64 ---- *)
Theorem C51_keeps_touching_entities : forall dim extent p t,
  let b64 := generic_format radix2 (FLT_exp (-1074) 53) in let rnd := round radix2 (FLT_exp (-1074) 53) ZnearestE in
  (dim = 2 /\ length extent = 4 \/ dim = 3 /\ length extent = 6) -> Forall b64 extent ->
  (forall q, In q p -> length q = dim /\ Forall b64 q) -> (forall r, In r t -> length r = S dim /\ forall v, In v r -> v < length p) ->
  exists t', remove_external rnd dim extent p t = (p, t', seq 0 (length p)) /\
    forall r, In r t' <-> In r t /\ exists v, In v r /\
      Forall2 (fun lohi x => (fst lohi <= x <= snd lohi)%R) (combine (firstn dim extent) (skipn dim extent)) (nth v p []).
Proof.
  intros dim extent p t b64 rnd HD HE HP HT.
  destruct (remove_external_spec rnd b64 dim extent p t b64_sign_exact HD HE HP HT) as [t' [E H]]. exists t'. split; [exact E|].
  intros r. rewrite H. split; intros [A [v [Iv B]]]; (split; [exact A|]); exists v; (split; [exact Iv|]); destruct HD as [[-> L]|[-> L]].
  - destruct extent as [|a [|b [|c [|d [|? ?]]]]]; cbn in L; try lia. cbn in B |- *. inversion B as [|? ? ? ? ? B1 B2]; subst. inversion B2 as [|? ? ? ? ? B3 B4]; subst. inversion B4; subst.
    repeat (apply Forall2_cons; [cbn; assumption|]). apply Forall2_nil.
  - destruct extent as [|a [|b [|c [|d [|e [|f [|? ?]]]]]]]; cbn in L; try lia. cbn in B |- *. inversion B as [|? ? ? ? ? B1 B2]; subst. inversion B2 as [|? ? ? ? ? B3 B4]; subst. inversion B4 as [|? ? ? ? ? B5 B6]; subst. inversion B6; subst.
    repeat (apply Forall2_cons; [cbn; assumption|]). apply Forall2_nil.
  - destruct extent as [|a [|b [|c [|d [|? ?]]]]]; cbn in L; try lia. cbn in B |- *. inversion B as [|? ? ? ? B1 B2]; subst. inversion B2 as [|? ? ? ? B3 B4]; subst. inversion B4; subst.
    repeat (constructor; [cbn in *; assumption|]). constructor.
  - destruct extent as [|a [|b [|c [|d [|e [|f [|? ?]]]]]]]; cbn in L; try lia. cbn in B |- *. inversion B as [|? ? ? ? B1 B2]; subst. inversion B2 as [|? ? ? ? B3 B4]; subst. inversion B4 as [|? ? ? ? B5 B6]; subst. inversion B6; subst.
    repeat (constructor; [cbn in *; assumption|]). constructor.
Qed.
Print Assumptions C51_keeps_touching_entities.
Example C51_case : exists t', remove_external (fun x => x) 2 [0;0;1;1]%R [[2;2];[3;2];[2;3];[1;1]]%R [[0;1;2];[1;2;3]] = ([[2;2];[3;2];[2;3];[1;1]]%R, t', [0;1;2;3]) /\
  forall r, In r t' <-> r = [1;2;3].
Proof.
  assert (sign_exact (fun x => x) (fun _ => True)) as SE by (intros a c _ _; split; reflexivity).
  destruct (remove_external_spec (fun x => x) (fun _ => True) 2 [0;0;1;1]%R [[2;2];[3;2];[2;3];[1;1]]%R [[0;1;2];[1;2;3]] SE) as [t' [E H]].
  - left. split; reflexivity.
  - repeat constructor.
  - intros q Hq. cbn in Hq. repeat (destruct Hq as [<- | Hq]; [split; [reflexivity|repeat constructor]|]). destruct Hq.
  - intros r Hr. cbn in Hr. repeat (destruct Hr as [<- | Hr]; [split; [reflexivity|intros v Hv; cbn in *; lia]|]). destruct Hr.
  - exists t'. split; [exact E|]. intros r. rewrite H. cbn. split.
    + intros [[<- | [<- | []]] [v [Iv B]]]; [exfalso|reflexivity]. cbn in Iv. repeat (destruct Iv as [<- | Iv]; [inversion B; subst; lra|]). destruct Iv.
    + intros ->. split; [tauto|]. exists 3. split; [cbn; tauto|]. cbn. constructor; [lra|]. constructor; [lra|]. constructor.
Qed.
