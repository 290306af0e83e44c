(** C52-C54: Laplacian smoothing of triangle meshes in the plane (exact arithmetic; the linear solver returns a solution).
    [uniq_ok]: np.unique, in whatever order it returns the distinct rows. *)
From Coq Require Import List ZArith Reals Bool Arith Lia Lra.
From Verif Require Import Model.Base Model.SDF Model.Simplex Model.Mesh Model.Laplace Spec.MeshTopo Spec.Smooth Proofs.ListAux Proofs.MeshAux
  Proofs.EdgeProofs Proofs.TopoProofs Proofs.LaplaceProofs Proofs.LaplaceFixed Proofs.LinSolve Props.P06_mesh.
Import ListNotations.
Local Open Scope R_scope.

(** ---- C52 ---- *)
Theorem C52_result_of_averaging_steps : forall uniq p t max_iter tol pfix p' t', uniq_ok uniq ->
  (forall r, In r t -> simplex 3 r) -> (forall r v, In r t -> In v r -> (v < length p)%nat) -> (forall x, In x p -> length x = 2%nat) ->
  (forall q, In q (asked pfix) -> length q = 2%nat) ->
  laplacian2 uniq p t max_iter tol pfix = Ok (p', t') ->
  t' = t /\ exists k, (k <= max_iter)%nat /\ steps t (held t p pfix) k p p'.
Proof. intros uniq p t k tol pfix p' t' HU HT HV HP HQ. exact (laplacian2_spec uniq p t k tol pfix p' t' HU HT HV HP HQ). Qed.
Print Assumptions C52_result_of_averaging_steps.
Theorem C52_keeps_fixed_vertices_and_hull : forall uniq p t max_iter tol pfix p' t', uniq_ok uniq ->
  (forall r, In r t -> simplex 3 r) -> (forall r v, In r t -> In v r -> (v < length p)%nat) -> (forall x, In x p -> length x = 2%nat) ->
  (forall q, In q (asked pfix) -> length q = 2%nat) ->
  laplacian2 uniq p t max_iter tol pfix = Ok (p', t') ->
  length p' = length p /\
  (forall v, (v < length p)%nat -> on_boundary t v -> nth v p' [] = nth v p []) /\
  (forall q v, In q (asked pfix) -> nearest p q v -> nth v p' [] = nth v p []) /\
  (forall a b c, (forall v, (v < length p)%nat -> a * coord p v 0 + b * coord p v 1 <= c) ->
     forall v, (v < length p)%nat -> a * coord p' v 0 + b * coord p' v 1 <= c).
Proof.
  intros uniq p t k tol pfix p' t' HU HT HV HP HQ H. destruct (laplacian2_spec uniq p t k tol pfix p' t' HU HT HV HP HQ H) as [-> [k' [_ ST]]].
  split; [apply (steps_length _ _ _ _ _ ST)|]. split; [|split].
  - intros v L B. apply (steps_fixed _ _ _ _ _ v ST L). left. exact B.
  - intros q v I N. apply (steps_fixed _ _ _ _ _ v ST); [apply N|]. right. exists q. split; assumption.
  - intros a b c HH. apply (steps_halfplane t (held t p pfix) k' p p' a b c (held_dec t p pfix) ST HH).
Qed.
Print Assumptions C52_keeps_fixed_vertices_and_hull.
Theorem C52_unused_vertex_nothing_moves : forall uniq p t max_iter tol pfix v, (forall r, In r t -> simplex 3 r) ->
  (v < length p)%nat -> (forall r, In r t -> ~ In v r) -> laplacian2 uniq p t max_iter tol pfix = Ok (p, t).
Proof. exact laplacian2_unused. Qed.
Print Assumptions C52_unused_vertex_nothing_moves.
(** it returns whenever there is a boundary and pfix is not the empty list; otherwise it raises unless no sweep is asked for *)
Theorem C52_succeeds : forall uniq p t max_iter tol pfix, uniq_ok uniq -> (forall r, In r t -> simplex 3 r) ->
  (forall v, (v < length p)%nat -> exists r, In r t /\ In v r) ->
  ((exists v, on_boundary t v) -> pfix <> Some [] -> exists p', laplacian2 uniq p t max_iter tol pfix = Ok (p', t)) /\
  (~ (exists v, on_boundary t v) \/ pfix = Some [] -> (1 <= max_iter)%nat -> laplacian2 uniq p t max_iter tol pfix = Err IndexError).
Proof.
  intros uniq p t k tol pfix HU HT U. pose proof (boundary_vertices_spec uniq 2 t (or_introl eq_refl) HU HT) as [_ BS].
  unfold laplacian2. destruct (existsb _ (seq 0 (length p))) eqn:E.
  { apply (unused_test p t HT) in E. destruct E as [v [L H]]. destruct (U v L) as [r [Hr Hv]]. destruct (H r Hr Hv). }
  split.
  - intros [v B] NF. apply BS in B. destruct (get_boundary_vertices uniq 2 t); [destruct B|]. destruct pfix as [[|]|]; [congruence|..]; destruct k; eexists; reflexivity.
  - intros H Lk. destruct k as [|k]; [lia|]. destruct H as [H| ->]; [|destruct (get_boundary_vertices uniq 2 t); reflexivity].
    destruct (get_boundary_vertices uniq 2 t) as [|v l]; [destruct pfix as [[|]|]; reflexivity|]. exfalso. apply H. exists v. apply BS. left. reflexivity.
Qed.
Print Assumptions C52_succeeds.

Lemma boundary_compute t v : (forall r, In r t -> simplex 3 r) -> (on_boundary t v <-> In v (get_boundary_vertices uniqR0 2 t)).
Proof. intros HT. symmetry. apply (boundary_vertices_spec uniqR0 2 t (or_introl eq_refl) uniqR0_ok HT). Qed.
Ltac tri_ok := let r := fresh in let H := fresh in intros r H; cbn in H;
  repeat (destruct H as [<- | H]; [split; [reflexivity|repeat (apply NoDup_cons; [cbn; lia|]); apply NoDup_nil]|]); destruct H.
(** a fan of four triangles around vertex 4, with a requested fixed point near vertex 4: nothing moves; without: it moves to the centre *)
Definition fan_t : list row := [[0;1;4];[1;2;4];[2;3;4];[3;0;4]]%nat.
Definition fan_p : list (list R) := [[0;0];[4;0];[4;4];[0;4];[1;1]].
Example C52_case : (forall r, In r fan_t -> simplex 3 r) /\ (exists v, on_boundary fan_t v) /\ ~ on_boundary fan_t 4 /\ nearest fan_p [1; 2] 4 /\
  held fan_t fan_p (Some [[1; 2]]) 4 /\ averaging_step fan_t (held fan_t fan_p None) fan_p [[0;0];[4;0];[4;4];[0;4];[2;2]].
Proof.
  assert (forall r, In r fan_t -> simplex 3 r) as HT by tri_ok. split; [exact HT|].
  assert (~ on_boundary fan_t 4) as N4 by (rewrite (boundary_compute fan_t 4 HT); vm_compute; lia).
  assert (nearest fan_p [1; 2] 4) as NE.
  { split; [cbn; lia|]. split; intros u Hu; cbn [length fan_p] in Hu; destruct u as [|[|[|[|[|u]]]]]; try lia; unfold gap2; cbn; lra. }
  split; [exists 0%nat; apply (boundary_compute fan_t 0 HT); vm_compute; tauto|]. split; [exact N4|]. split; [exact NE|].
  split; [right; exists [1; 2]; split; [left; reflexivity|exact NE]|].
  split; [reflexivity|]. intros v Hv. cbn [length fan_p] in Hv.
  destruct v as [|[|[|[|[|v]]]]]; try lia; (split; [reflexivity|]); (split; [intros H; try reflexivity|intros H]);
    try (exfalso; apply H; left; apply (boundary_compute fan_t _ HT); vm_compute; tauto).
  - destruct H as [H|[q [[] _]]]. contradiction.
  - split; [unfold links; cbn; lra|]. intros j Lj. destruct j as [|[|j]]; [..|lia]; unfold links, coord; cbn; lra.
Qed.

(** ---- C53 ---- *)
Theorem C53_stops_when_edges_shrink : forall uniq p t max_iter tol pfix q, uniq_ok uniq ->
  (forall r, In r t -> simplex 3 r) -> (forall r v, In r t -> In v r -> (v < length p)%nat) -> (forall x, In x p -> length x = 2%nat) ->
  (forall x, In x (asked pfix) -> length x = 2%nat) -> (forall v, (v < length p)%nat -> exists r, In r t /\ In v r) ->
  (exists v, on_boundary t v) -> pfix <> Some [] ->
  averaging_step t (held t p pfix) p q -> shrunk t p q -> 0 < tol -> (1 <= max_iter)%nat ->
  laplacian2 uniq p t max_iter tol pfix = Ok (q, t).
Proof. intros uniq p t k tol pfix q HU HT HV HP HQ U B NF. exact (stops_when_shrunk uniq p t k tol pfix q HU HT HV HP HQ U B NF). Qed.
Print Assumptions C53_stops_when_edges_shrink.
Definition far_t : list row := [[0;1;4];[1;5;4];[1;2;5];[2;4;5];[2;3;4];[3;0;4]]%nat.
Definition far_p : list (list R) := [[0;0];[4;0];[4;4];[0;4];[1000;2];[2000;2]].
Definition far_q : list (list R) := [[0;0];[4;0];[4;4];[0;4];[2008/5;2];[336;2]].
Definition far_s : list (list R) := [[0;0];[4;0];[4;4];[0;4];[344/5;2];[2048/15;2]].
Lemma far_ok : (forall r, In r far_t -> simplex 3 r) /\ (forall r v, In r far_t -> In v r -> (v < 6)%nat) /\
  (forall v, (v < 6)%nat -> exists r, In r far_t /\ In v r) /\ forall v, on_boundary far_t v <-> (v < 4)%nat.
Proof.
  assert (forall r, In r far_t -> simplex 3 r) as HT by tri_ok. split; [exact HT|]. split; [|split].
  - intros r v Hr Hv. cbn in Hr. repeat (destruct Hr as [<- | Hr]; [cbn in Hv; lia|]). destruct Hr.
  - intros v Hv. destruct v as [|[|[|[|[|[|v]]]]]]; [exists [0;1;4]%nat|exists [0;1;4]%nat|exists [1;2;5]%nat|exists [2;3;4]%nat|exists [0;1;4]%nat|exists [1;2;5]%nat|lia]; cbn; tauto.
  - intros v. rewrite (boundary_compute far_t v HT). assert (get_boundary_vertices uniqR0 2 far_t = [0;1;2;3]%nat) as -> by reflexivity. cbn. lia.
Qed.
Lemma far_step p q : length p = 6%nat -> (forall v, held far_t p None v <-> (v < 4)%nat) -> length q = 6%nat -> (forall x, In x q -> length x = 2%nat) ->
  (forall v, (v < 4)%nat -> nth v q [] = nth v p []) ->
  (forall j, (j < 2)%nat -> coord q 4 j * 10 = 2 * (coord p 0 j + coord p 1 j + coord p 2 j + coord p 3 j + coord p 5 j)) ->
  (forall j, (j < 2)%nat -> coord q 5 j * 6 = 2 * (coord p 1 j + coord p 2 j + coord p 4 j)) ->
  averaging_step far_t (held far_t p None) p q.
Proof.
  intros LP HH LQ Q2 Q4 E4 E5. split; [congruence|]. rewrite LP. intros v Lv. split; [apply Q2, nth_In; lia|].
  split; [intros H; apply Q4, HH, H|]. intros N. rewrite HH in N. unfold averages. rewrite LP.
  destruct v as [|[|[|[|[|[|v]]]]]]; try lia; unfold links; cbn [sum_below]; (split; [cbn; lra|]); intros j Lj; specialize (E4 j Lj); specialize (E5 j Lj); cbn; lra.
Qed.
Lemma far_held p : forall v, held far_t p None v <-> (v < 4)%nat.
Proof. intros v. rewrite <- (proj2 (proj2 (proj2 far_ok))). split; [intros [H|[q [[] _]]]; exact H|]. intros H. left. exact H. Qed.
Ltac rows2 := let x := fresh in let H := fresh in intros x H; cbn in H; repeat (destruct H as [<- | H]; [reflexivity|]); destruct H.
Theorem C53_stops_although_vertices_move_refuted : exists p t v,
  (forall r, In r t -> simplex 3 r) /\ (forall r v, In r t -> In v r -> (v < length p)%nat) /\
  (forall v, (v < length p)%nat -> exists r, In r t /\ In v r) /\
  forall uniq tol max_iter, uniq_ok uniq -> 0 < tol -> (1 <= max_iter)%nat ->
  exists p' p'', laplacian2 uniq p t max_iter tol None = Ok (p', t) /\
    averaging_step t (held t p None) p' p'' /\ 300 < Rabs (coord p'' v 0 - coord p' v 0).
Proof.
  exists far_p, far_t, 4%nat. destruct far_ok as [HT [HV [U B]]]. split; [exact HT|]. split; [exact HV|]. split; [exact U|].
  intros uniq tol k HU TP Lk. exists far_q, far_s. split; [|split].
  - apply C53_stops_when_edges_shrink; try assumption.
    + rows2.
    + intros x [].
    + exists 0%nat. apply B. lia.
    + discriminate.
    + apply far_step; try reflexivity; [apply far_held|rows2|..].
      * intros v Lv. destruct v as [|[|[|[|v]]]]; [reflexivity..|lia].
      * intros j Lj. destruct j as [|[|j]]; [..|lia]; unfold coord; cbn; lra.
      * intros j Lj. destruct j as [|[|j]]; [..|lia]; unfold coord; cbn; lra.
    + intros r a b Hr [i [j [Li [Lj [Nij [<- <-]]]]]]. cbn in Hr.
      repeat (destruct Hr as [<- | Hr]; [cbn [length] in Li, Lj; destruct i as [|[|[|i]]]; try lia; destruct j as [|[|[|j]]]; try lia; unfold gap2; cbn; lra|]). destruct Hr.
  - assert (forall v, held far_t far_p None v <-> held far_t far_q None v) as HE by (intros v; rewrite !far_held; reflexivity).
    pose proof (far_step far_q far_s eq_refl (far_held far_q) eq_refl) as S. destruct S as [SL S].
    + rows2.
    + intros v Lv. destruct v as [|[|[|[|v]]]]; [reflexivity..|lia].
    + intros j Lj. destruct j as [|[|j]]; [..|lia]; unfold coord; cbn; lra.
    + intros j Lj. destruct j as [|[|j]]; [..|lia]; unfold coord; cbn; lra.
    + split; [exact SL|]. intros v Lv. destruct (S v Lv) as [A [C D]]. split; [exact A|]. split; intros H; [apply C|apply D]; rewrite ?HE in *; assumption.
  - unfold coord. cbn. rewrite Rabs_left; lra.
Qed.
Print Assumptions C53_stops_although_vertices_move_refuted.

(** ---- C54 ---- *)
Theorem C54_solution_averages : forall uniq p t x, uniq_ok uniq ->
  (forall r, In r t -> simplex 3 r) -> (forall r v, In r t -> In v r -> (v < length p)%nat) -> lap_solves uniq p t x ->
  forall v, (v < length p)%nat ->
   (on_boundary t v -> forall j, (j < 2)%nat -> coord x v j = coord p v j) /\
   (~ on_boundary t v -> (exists r, In r t /\ In v r) -> averages t x x v).
Proof.
  intros uniq p t x HU HT HV HS v Lv. split.
  - intros B. exact (solves_boundary uniq p t x v HU HT HS Lv B).
  - intros NB Us. unfold averages. rewrite (proj1 HS). split; [|exact (solves_interior uniq p t x v HU HT HV HS Lv NB)].
    rewrite <- (nbrs_count (length p) t v HT HV). apply (lt_INR 0). pose proof (proj1 (nbrs_used t v HT) Us). lia.
Qed.
Print Assumptions C54_solution_averages.
Theorem C54_maximum_principle : forall uniq p t x a b c, uniq_ok uniq ->
  (forall r, In r t -> simplex 3 r) -> (forall r v, In r t -> In v r -> (v < length p)%nat) -> lap_solves uniq p t x ->
  (forall v, (v < length p)%nat -> reaches_boundary t v) ->
  (forall v, (v < length p)%nat -> on_boundary t v -> a * coord p v 0 + b * coord p v 1 <= c) ->
  forall v, (v < length p)%nat -> a * coord x v 0 + b * coord x v 1 <= c.
Proof. exact solves_halfplane. Qed.
Print Assumptions C54_maximum_principle.
Theorem C54_unique_solution : forall uniq p t x y, uniq_ok uniq ->
  (forall r, In r t -> simplex 3 r) -> (forall r v, In r t -> In v r -> (v < length p)%nat) ->
  (forall v, (v < length p)%nat -> reaches_boundary t v) -> lap_solves uniq p t x -> lap_solves uniq p t y ->
  forall v j, (v < length p)%nat -> (j < 2)%nat -> coord x v j = coord y v j.
Proof. exact solves_unique. Qed.
Print Assumptions C54_unique_solution.
Theorem C54_solution_exists : forall uniq p t, uniq_ok uniq ->
  (forall r, In r t -> simplex 3 r) -> (forall r v, In r t -> In v r -> (v < length p)%nat) ->
  (forall v, (v < length p)%nat -> reaches_boundary t v) -> exists x, lap_solves uniq p t x.
Proof. exact solves_exists. Qed.
Print Assumptions C54_solution_exists.
(** a vertex of no triangle may be put anywhere: the system is then singular *)
Theorem C54_unused_vertex_undetermined : forall uniq p t x y v, uniq_ok uniq ->
  (forall r, In r t -> simplex 3 r) -> (forall r v, In r t -> In v r -> (v < length p)%nat) ->
  (forall r, In r t -> ~ In v r) -> lap_solves uniq p t x ->
  length y = length p -> (forall u, u <> v -> nth u y [] = nth u x []) -> lap_solves uniq p t y.
Proof. exact solves_unused. Qed.
Print Assumptions C54_unused_vertex_undetermined.
(** an interior vertex that was asked to stay moves, whatever the solver: there is a solution, and every solution moves it *)
Theorem C54_interior_fixed_point_moves_refuted : exists p t v, (forall r, In r t -> simplex 3 r) /\
  (forall v, (v < length p)%nat -> reaches_boundary t v) /\ ~ on_boundary t v /\
  forall uniq, uniq_ok uniq -> (exists x, lap_solves uniq p t x) /\
    forall x, lap_solves uniq p t x -> coord x v 0 = coord p v 0 + 1 /\ coord x v 1 = coord p v 1 + 1.
Proof.
  exists fan_p, fan_t, 4%nat. destruct C52_case as [HT [_ [N4 _]]]. split; [exact HT|].
  assert (forall v, (v < 4)%nat -> on_boundary fan_t v) as B.
  { intros v Lv. apply (boundary_compute fan_t v HT). assert (get_boundary_vertices uniqR0 2 fan_t = [0;1;2;3]%nat) as -> by reflexivity. cbn. lia. }
  assert (forall r v, In r fan_t -> In v r -> (v < length fan_p)%nat) as HV.
  { intros r v Hr Hv. cbn in Hr. repeat (destruct Hr as [<- | Hr]; [cbn in *; lia|]). destruct Hr. }
  split; [|split; [exact N4|]].
  - intros v Lv. cbn [length fan_p] in Lv. destruct (Nat.eq_dec v 4) as [->|N]; [|apply reach_here, B; lia].
    apply (reach_step fan_t 4 0 [0;1;4]%nat); [cbn; tauto..|lia|]. apply reach_here, B. lia.
  - intros uniq HU. split.
    + exists [[0;0];[4;0];[4;4];[0;4];[2;2]]. split; [reflexivity|]. intros v j Lv Lj.
      pose proof (boundary_vertices_spec uniq 2 fan_t (or_introl eq_refl) HU HT) as [_ BS]. fold (on_boundary fan_t v) in BS.
      unfold lap_matrix, lap_rhs. cbn [length fan_p] in Lv. rewrite rtotal_seq.
      destruct (existsb (Nat.eqb v) (get_boundary_vertices uniq 2 fan_t)) eqn:E.
      * apply mem_fixed, BS in E. destruct v as [|[|[|[|[|v]]]]]; try lia; try contradiction; destruct j as [|[|j]]; try lia; cbn; lra.
      * assert (v = 4%nat) as ->.
        { destruct (Nat.lt_ge_cases v 4) as [L4|L4]; [|lia]. exfalso. pose proof (proj2 (mem_fixed _ _) (proj2 (BS v) (B v L4))). congruence. }
        destruct j as [|[|j]]; try lia; unfold coo_at, rtotal; cbn; lra.
    + intros x HS. pose proof (C54_solution_averages uniq fan_p fan_t x HU HT HV HS) as S.
      pose proof (proj1 (S 0%nat ltac:(cbn; lia)) (B 0%nat ltac:(lia))) as S0. pose proof (proj1 (S 1%nat ltac:(cbn; lia)) (B 1%nat ltac:(lia))) as S1.
      pose proof (proj1 (S 2%nat ltac:(cbn; lia)) (B 2%nat ltac:(lia))) as S2. pose proof (proj1 (S 3%nat ltac:(cbn; lia)) (B 3%nat ltac:(lia))) as S3.
      destruct (proj2 (S 4%nat ltac:(cbn; lia)) N4 ltac:(exists [0;1;4]%nat; cbn; tauto)) as [_ S4]. rewrite (proj1 HS) in S4. cbn [length fan_p] in S4.
      pose proof (S4 0%nat ltac:(lia)) as A. pose proof (S4 1%nat ltac:(lia)) as A'.
      unfold links in A, A'. cbn in A, A'. rewrite S0, S1, S2, S3 in A by lia. rewrite S0, S1, S2, S3 in A' by lia.
      unfold coord at 2 3 4 5 in A. unfold coord at 2 3 4 5 in A'. cbn in A, A'. unfold coord at 2 4. cbn. split; lra.
Qed.
Print Assumptions C54_interior_fixed_point_moves_refuted.
