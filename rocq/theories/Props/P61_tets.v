(** C126: tetrahedral meshes given to the smoothers, to get_boundary_edges and to is_manifold. *)
From Coq Require Import List ZArith Reals Bool Arith Lia Lra.
From Verif Require Import Model.Base Model.SDF Model.Simplex Model.Mesh Model.Laplace Model.Smooth3 Spec.MeshTopo Proofs.ListAux Proofs.MeshAux
  Proofs.EdgeProofs Proofs.TopoProofs Proofs.LaplaceProofs Proofs.TetEdges Props.P06_mesh.
Import ListNotations.

(** get_boundary_edges(dim=3): the edges of exactly two tetrahedra *)
Theorem C126_edges_of_two_tetrahedra : forall uniq t, uniq_ok uniq -> (forall r, In r t -> simplex 4 r) ->
  NoDup (get_boundary_edges uniq 3 t) /\
  forall f, In f (get_boundary_edges uniq 3 t) <-> increasing f /\ length f = 2 /\ entities_on f t = 2.
Proof. intros uniq t HU HT. split; [apply rows_with_count_nodup, HU|]. intros f. apply boundary_edges3_in; assumption. Qed.
Print Assumptions C126_edges_of_two_tetrahedra.

(** is_manifold(dim=3) counts them: True iff twice their number is three times the number of their ends; without any it raises *)
Theorem C126_is_manifold_counts : forall uniq t, uniq_ok uniq -> (forall r, In r t -> simplex 4 r) ->
  ((forall f, increasing f -> length f = 2 -> entities_on f t <> 2) /\ is_manifold uniq 3 3 t = Err IndexError) \/
  exists es vs b, is_manifold uniq 3 3 t = Ok b /\ NoDup es /\ NoDup vs /\ es <> [] /\
    (forall f, In f es <-> increasing f /\ length f = 2 /\ entities_on f t = 2) /\
    (forall v, In v vs <-> exists f, In f es /\ In v f) /\
    (b = true <-> 2 * length es = 3 * length vs).
Proof.
  intros uniq t HU HT. pose proof (C126_edges_of_two_tetrahedra uniq t HU HT) as [ND HI]. unfold is_manifold.
  destruct (get_boundary_edges uniq 3 t) as [|e es] eqn:E.
  - left. split; [|reflexivity]. intros f A B C. apply (HI f). tauto.
  - right. exists (e :: es), (unique_nat (concat (e :: es))). eexists. split; [reflexivity|]. split; [exact ND|]. split; [apply unique_nat_nodup|].
    split; [discriminate|]. split; [exact HI|]. split; [|apply Nat.eqb_eq].
    intros v. rewrite unique_nat_in, in_concat. split; intros [f Hf]; exists f; tauto.
Qed.
Print Assumptions C126_is_manifold_counts.

(** so a single tetrahedron raises and two tetrahedra sharing a facet are called non-manifold, although each edge of their surface is in exactly
    two of the surface's triangles *)
Definition glued : list (list nat) := [[0;1;2;3];[0;2;1;4]].
Theorem C126_is_manifold_3d_refuted :
  is_manifold uniqR0 3 3 [[0;1;2;3]] = Err IndexError /\
  is_manifold uniqR0 3 3 glued = Ok false /\
  length (get_boundary_facets uniqR0 glued) = 6 /\
  (forall a b, a < b -> entities_on [a; b] (get_boundary_facets uniqR0 glued) = 0 \/ entities_on [a; b] (get_boundary_facets uniqR0 glued) = 2).
Proof.
  split; [vm_compute; reflexivity|]. split; [vm_compute; reflexivity|]. split; [vm_compute; reflexivity|].
  match goal with |- context [get_boundary_facets ?u ?g] => let v := eval vm_compute in (get_boundary_facets u g) in change (get_boundary_facets u g) with v end.
  intros a b L. do 5 (destruct a as [|a]; [do 5 (destruct b as [|b]; [try lia; (left; vm_compute; reflexivity) || (right; vm_compute; reflexivity)|]); left; reflexivity|]).
  left. reflexivity.
Qed.
Print Assumptions C126_is_manifold_3d_refuted.
(** and the other way round: True for two tetrahedra occupying the same place *)
Theorem C126_doubled_tetrahedron_is_manifold : is_manifold uniqR0 3 3 [[0;1;2;3];[0;1;2;3]] = Ok true /\ get_boundary_facets uniqR0 [[0;1;2;3];[0;1;2;3]] = [].
Proof. split; vm_compute; reflexivity. Qed.
Print Assumptions C126_doubled_tetrahedron_is_manifold.

(** laplacian2 never smooths a tetrahedral mesh and never says so with its NotImplementedError: unchanged, or ValueError *)
Theorem C126_laplacian2_tetrahedra : forall uniq p t n max_iter tol pfix, (forall r, In r t -> simplex 4 r) ->
  ((max_iter = 0 \/ exists v, v < n /\ forall r, In r t -> ~ In v (firstn 3 r)) /\
     laplacian2_call uniq [n; 3] p t max_iter tol pfix = Ok (p, t)) \/
  (0 < max_iter /\ (forall v, v < n -> exists r, In r t /\ In v (firstn 3 r)) /\
     laplacian2_call uniq [n; 3] p t max_iter tol pfix = Err ValueError).
Proof.
  intros uniq p t n k tol pfix HT. unfold laplacian2_call. cbn [Nat.eqb].
  destruct (existsb (fun v => length (nbrs t v) =? 0) (seq 0 n)) eqn:E.
  - left. split; [|reflexivity]. right. apply existsb_exists in E. destruct E as [v [Hv E]]. apply in_seq in Hv. exists v. split; [lia|].
    intros r Hr I. apply Nat.eqb_eq in E. apply (proj1 (nbrs_used_tets t v HT)); [exists r; tauto|exact E].
  - destruct k as [|k]; [left; split; [left; reflexivity|reflexivity]|]. right. split; [lia|]. split; [|reflexivity].
    intros v Lv. apply nbrs_used_tets; [exact HT|]. intros Z.
    assert (existsb (fun v => length (nbrs t v) =? 0) (seq 0 n) = true) as C; [|congruence].
    apply existsb_exists. exists v. split; [apply in_seq; lia|]. apply Nat.eqb_eq, Z.
Qed.
Print Assumptions C126_laplacian2_tetrahedra.
Theorem C126_laplacian2_array_rank : forall uniq shape p t max_iter tol pfix, length shape <> 2 ->
  laplacian2_call uniq shape p t max_iter tol pfix = Err OtherError.
Proof. intros uniq [|n [|w [|x s]]] p t k tol pfix H; try reflexivity. cbn in H. lia. Qed.
Print Assumptions C126_laplacian2_array_rank.
Theorem C126_laplacian2_plane : forall uniq n p t max_iter tol pfix, laplacian2_call uniq [n; 2] p t max_iter tol pfix = laplacian2 uniq p t max_iter tol pfix.
Proof. reflexivity. Qed.
Print Assumptions C126_laplacian2_plane.

(** laplacian2_fixed_point never gets to the solver with three coordinates; with two it does iff some edge lies in exactly one triangle *)
Theorem C126_fixed_point_raises : forall uniq t n, uniq_ok uniq ->
  (fixed_point_raises uniq [n; 3] t = Some ValueError \/ fixed_point_raises uniq [n; 3] t = Some IndexError) /\
  ((forall r, In r t -> simplex 3 r) ->
    (fixed_point_raises uniq [n; 2] t = None <-> exists f, increasing f /\ length f = 2 /\ entities_on f t = 1) /\
    (fixed_point_raises uniq [n; 2] t = Some IndexError <-> forall f, increasing f -> length f = 2 -> entities_on f t <> 1)).
Proof.
  intros uniq t n HU. unfold fixed_point_raises. cbn [Nat.eqb]. split; [destruct (get_boundary_vertices uniq 2 t); tauto|]. intros HT.
  assert (get_boundary_vertices uniq 2 t = [] <-> forall f, increasing f -> length f = 2 -> entities_on f t <> 1) as B.
  { unfold get_boundary_vertices. cbn [Nat.eqb]. split.
    - intros Z f A1 A2 A3. assert (In f (get_boundary_edges uniq 2 t)) as I by (apply boundary_edges_in; tauto).
      destruct (row2 f A2) as [x [y ->]]. assert (In x (unique_nat (concat (get_boundary_edges uniq 2 t)))) as C.
      { apply unique_nat_in, in_concat. exists [x; y]. split; [exact I|left; reflexivity]. }
      rewrite Z in C. destruct C.
    - intros H. destruct (get_boundary_edges uniq 2 t) as [|f be] eqn:E; [reflexivity|]. exfalso.
      assert (In f (get_boundary_edges uniq 2 t)) as I by (rewrite E; left; reflexivity). apply boundary_edges_in in I; [|assumption..]. apply (H f); tauto. }
  destruct (get_boundary_vertices uniq 2 t) as [|v l] eqn:E.
  - split; [|tauto]. split; [discriminate|]. intros [f [A1 [A2 A3]]]. exfalso. apply (proj1 B eq_refl f); assumption.
  - split; [|split; [discriminate|intros K; apply B in K; discriminate]]. split; [intros _|reflexivity].
    assert (In v (get_boundary_vertices uniq 2 t)) as I by (rewrite E; left; reflexivity). unfold get_boundary_vertices in I. cbn [Nat.eqb] in I.
    apply (proj1 (unique_nat_in _ _)), in_concat in I. destruct I as [f [I _]]. apply boundary_edges_in in I; [|assumption..]. exists f. exact I.
Qed.
Print Assumptions C126_fixed_point_raises.

(** the last corner of a tetrahedron does not count: the whole of one tetrahedron is "disjoint" and comes back, the same cell listed twice from different corners
    raises *)
Example C126_case : let p := [[0;0;0];[1;0;0];[0;1;0];[0;0;1]]%R in
  laplacian2_call uniqR0 [4; 3] p [[0;1;2;3]] 20 (1/100) None = Ok (p, [[0;1;2;3]]) /\
  laplacian2_call uniqR0 [4; 3] p [[0;1;2;3];[1;2;3;0]] 20 (1/100) None = Err ValueError /\
  fixed_point_raises uniqR0 [5; 3] glued = Some IndexError /\ fixed_point_raises uniqR0 [4; 3] [[0;1;2;3]] = Some ValueError /\
  get_boundary_edges uniqR0 3 glued = [[0;2];[1;2];[0;1]].
Proof. repeat split; vm_compute; reflexivity. Qed.
