(** C120: what Laplacian smoothing does to edge lengths, areas and orientations. *)
From Coq Require Import List ZArith Reals Bool Arith Lia Lra.
From Verif Require Import Model.Base Model.SDF Model.Simplex Model.Mesh Model.Laplace Spec.MeshTopo Spec.Smooth Spec.Energy Proofs.ListAux Proofs.MeshAux
  Proofs.EdgeProofs Proofs.TopoProofs Proofs.LaplaceProofs Proofs.LaplaceFixed Proofs.EnergyProofs Props.P06_mesh Props.P08_laplace.
Import ListNotations.
Local Open Scope R_scope.

(** one sweep lowers the sum of squared edge lengths by at least the sum of the squared movements *)
Theorem C120_every_sweep : forall t F p q, (forall r, In r t -> simplex 3 r) -> (forall r v, In r t -> In v r -> (v < length p)%nat) ->
  (forall v, F v \/ ~ F v) -> averaging_step t F p q -> energy t q + movement t p q <= energy t p.
Proof. exact step_energy. Qed.
Print Assumptions C120_every_sweep.
Theorem C120_smoothing_never_lengthens : forall uniq p t max_iter tol pfix p' t', uniq_ok uniq ->
  (forall r, In r t -> simplex 3 r) -> (forall r v, In r t -> In v r -> (v < length p)%nat) -> (forall x, In x p -> length x = 2%nat) ->
  (forall q, In q (asked pfix) -> length q = 2%nat) ->
  laplacian2 uniq p t max_iter tol pfix = Ok (p', t') ->
  energy t p' <= energy t p /\ (energy t p' = energy t p -> p' = p).
Proof.
  intros uniq p t k tol pfix p' t' HU HT HV HP HQ H. destruct (laplacian2_spec uniq p t k tol pfix p' t' HU HT HV HP HQ H) as [_ [k' [_ ST]]].
  split; [exact (steps_energy t _ k' p p' HT HV (held_dec t p pfix) ST)|]. intros E.
  destruct (used_dec t (length p)) as [[v [L U]]|U].
  - rewrite (laplacian2_unused uniq p t k tol pfix v HT L U) in H. inversion H; subst; reflexivity.
  - apply (steps_energy_strict t _ k' p p' HT HV (held_dec t p pfix) U HP ST). lra.
Qed.
Print Assumptions C120_smoothing_never_lengthens.
(** the direct solver's answer has the least energy of all placements with the same boundary *)
Theorem C120_solution_is_the_minimum : forall uniq p t x y, uniq_ok uniq ->
  (forall r, In r t -> simplex 3 r) -> (forall r v, In r t -> In v r -> (v < length p)%nat) ->
  lap_solves uniq p t x -> same_boundary t y p -> energy t x <= energy t y.
Proof. exact solution_minimum. Qed.
Print Assumptions C120_solution_is_the_minimum.
(** the total signed area depends on the boundary only; so both smoothers keep it *)
Lemma out_of_range (p q : list (list R)) v j : length q = length p -> ~ (v < length p)%nat -> coord q v j = coord p v j.
Proof. intros L N. unfold coord. rewrite (nth_overflow p), (nth_overflow q) by lia. reflexivity. Qed.
Theorem C120_total_area_kept : forall uniq p t max_iter tol pfix p' t', uniq_ok uniq ->
  (forall r, In r t -> simplex 3 r) -> (forall r v, In r t -> In v r -> (v < length p)%nat) -> (forall x, In x p -> length x = 2%nat) ->
  (forall q, In q (asked pfix) -> length q = 2%nat) -> coherent t ->
  (laplacian2 uniq p t max_iter tol pfix = Ok (p', t') -> total_area t p' = total_area t p) /\
  (forall x, lap_solves uniq p t x -> total_area t x = total_area t p).
Proof.
  intros uniq p t k tol pfix p' t' HU HT HV HP HQ CO. split.
  - intros H. destruct (C52_keeps_fixed_vertices_and_hull uniq p t k tol pfix p' t' HU HT HV HP HQ H) as [L [B _]].
    apply same_area; [exact HT|exact CO|]. intros v Bv j Lj. destruct (lt_dec v (length p)) as [Lv|Nv]; [|apply out_of_range; assumption].
    unfold coord. rewrite (B v Lv Bv). reflexivity.
  - intros x HS. apply same_area; [exact HT|exact CO|]. intros v Bv j Lj. destruct (lt_dec v (length p)) as [Lv|Nv]; [|apply out_of_range; [apply HS|exact Nv]].
    exact (solves_boundary uniq p t x v HU HT HS Lv Bv j Lj).
Qed.
Print Assumptions C120_total_area_kept.

(** but a triangle may be turned over: a dart-shaped domain *)
Definition dart_p : list (list R) := [[0;4];[-4;-4];[0;0];[4;-4];[0;1]].
Definition dart_q : list (list R) := [[0;4];[-4;-4];[0;0];[4;-4];[0;-1]].
Definition dart_t : list row := [[4;0;1];[4;1;2];[4;2;3];[4;3;0]]%nat.
Lemma dart_ok : (forall r, In r dart_t -> simplex 3 r) /\ (forall r v, In r dart_t -> In v r -> (v < 5)%nat) /\
  (forall v, (v < 5)%nat -> exists r, In r dart_t /\ In v r) /\ forall v, on_boundary dart_t v <-> (v < 4)%nat.
Proof.
  assert (forall r, In r dart_t -> simplex 3 r) as HT by tri_ok. split; [exact HT|]. split; [|split].
  - intros r v Hr Hv. cbn in Hr. repeat (destruct Hr as [<- | Hr]; [cbn in Hv; lia|]). destruct Hr.
  - intros v Hv. destruct v as [|[|[|[|[|v]]]]]; [exists [4;0;1]%nat|exists [4;0;1]%nat|exists [4;1;2]%nat|exists [4;2;3]%nat|exists [4;0;1]%nat|lia]; cbn; tauto.
  - intros v. rewrite (boundary_compute dart_t v HT).
    enough (forall w, In w (get_boundary_vertices uniqR0 2 dart_t) <-> (w < 4)%nat) as K by apply K.
    assert (incl (get_boundary_vertices uniqR0 2 dart_t) [0;1;2;3]%nat /\ incl [0;1;2;3]%nat (get_boundary_vertices uniqR0 2 dart_t)) as [A B].
    { vm_compute. split; intros w Hw; cbn in *; tauto. }
    intros w. split; [intros I; apply A in I; cbn in I; lia|]. intros L. apply B. cbn. lia.
Qed.
Lemma dart_held p v : held dart_t p None v <-> (v < 4)%nat.
Proof. rewrite <- (proj2 (proj2 (proj2 dart_ok))). split; [intros [H|[q [[] _]]]; exact H|]. intros H. left. exact H. Qed.
Lemma dart_step p : p = dart_p \/ p = dart_q -> averaging_step dart_t (held dart_t dart_p None) p dart_q.
Proof.
  intros HP. assert (length p = 5%nat) as LP by (destruct HP as [-> | ->]; reflexivity). split; [rewrite LP; reflexivity|]. rewrite LP. intros v Lv.
  rewrite dart_held. destruct v as [|[|[|[|[|v]]]]]; try lia; (split; [reflexivity|]); (split; [intros H|intros H]); try lia;
    try (destruct HP as [-> | ->]; reflexivity).
  unfold averages. rewrite LP. split; [unfold links; cbn; lra|]. intros j Lj. destruct j as [|[|j]]; [..|lia]; destruct HP as [-> | ->]; unfold links, coord; cbn; lra.
Qed.
Lemma dart_steps k p : p = dart_p \/ p = dart_q -> forall q, steps dart_t (held dart_t dart_p None) k p q -> (k = 0%nat /\ q = p) \/ q = dart_q.
Proof.
  revert p. induction k as [|k IH]; intros p HP q H; inversion H as [|? ? q1 ? S1 SR]; subst; [left; split; reflexivity|right].
  pose proof (step_unique dart_t _ p q1 dart_q (held_dec dart_t dart_p None) S1 (dart_step p HP)) as ->.
  destruct (IH dart_q (or_intror eq_refl) q SR) as [[_ ->]| ->]; reflexivity.
Qed.
Theorem C120_triangles_stay_positive_refuted : exists p t r,
  (forall r, In r t -> simplex 3 r) /\ (forall r v, In r t -> In v r -> (v < length p)%nat) /\ coherent t /\
  (forall r, In r t -> 0 < area p r) /\ In r t /\
  (forall uniq max_iter tol, uniq_ok uniq -> (1 <= max_iter)%nat ->
     exists p', laplacian2 uniq p t max_iter tol None = Ok (p', t) /\ area p' r < 0) /\
  (forall uniq, uniq_ok uniq -> (exists x, lap_solves uniq p t x) /\ forall x, lap_solves uniq p t x -> area x r < 0).
Proof.
  exists dart_p, dart_t, [4;1;2]%nat. destruct dart_ok as [HT [HV [U B]]]. split; [exact HT|]. split; [exact HV|].
  assert (forall x, In x dart_p -> length x = 2%nat) as P2 by rows2.
  split; [unfold coherent; cbn; repeat (apply NoDup_cons; [cbn; intuition congruence|]); apply NoDup_nil|].
  split; [intros r Hr; cbn in Hr; repeat (destruct Hr as [<- | Hr]; [unfold area, coord, c0, c1, c2; cbn; lra|]); destruct Hr|].
  split; [cbn; tauto|]. split.
  - intros uniq k tol HU Lk. destruct (proj1 (C52_succeeds uniq dart_p dart_t k tol None HU HT U)) as [p' H]; [exists 0%nat; apply B; lia|discriminate|].
    exists p'. split; [exact H|]. destruct (laplacian2_used uniq dart_p dart_t k tol None p' dart_t HT U H) as [_ E].
    destruct (loop_steps dart_t _ _ (get_edges 2 dart_t) tol HT (fixed_mem uniq dart_t dart_p None HU HT P2 ltac:(discriminate) (fun q (I : In q []) => match I with end)) k
      (edge_lens (get_edges 2 dart_t) dart_p) dart_p HV P2 U) as [k' [_ [K ST]]]. rewrite <- E in ST. specialize (K Lk).
    destruct (dart_steps k' dart_p (or_introl eq_refl) p' ST) as [[Z _]| ->]; [lia|]. unfold area, coord, c0, c1, c2. cbn. lra.
  - intros uniq HU. split.
    + apply C54_solution_exists; try assumption. intros v Lv. cbn [length dart_p] in Lv. destruct (Nat.eq_dec v 4) as [->|N]; [|apply reach_here, B; lia].
      apply (reach_step dart_t 4 0 [4;0;1]%nat); [cbn; tauto..|lia|]. apply reach_here, B. lia.
    + intros x HS. assert (forall v, (v < 4)%nat -> forall j, (j < 2)%nat -> coord x v j = coord dart_p v j) as KB.
      { intros v Lv j Lj. apply (solves_boundary uniq dart_p dart_t x v HU HT HS); [cbn; lia|apply B; lia|exact Lj]. }
      assert (~ on_boundary dart_t 4) as N4 by (rewrite B; lia).
      assert (forall j, (j < 2)%nat -> coord x 4 j * 8 = 2 * (coord x 0 j + coord x 1 j + coord x 2 j + coord x 3 j)) as KI.
      { intros j Lj. pose proof (solves_interior uniq dart_p dart_t x 4 HU HT HV HS ltac:(cbn; lia) N4 j Lj) as E. unfold links in E. cbn -[coord] in E. lra. }
      pose proof (KI 0%nat ltac:(lia)) as E0. pose proof (KI 1%nat ltac:(lia)) as E1. rewrite (KB 0%nat), (KB 1%nat), (KB 2%nat), (KB 3%nat) in E0, E1 by lia.
      unfold area, c0, c1, c2. cbn [nth]. rewrite !(KB 1%nat), !(KB 2%nat) by lia.
      assert (coord x 4 0 = 0) as -> by (unfold dart_p in E0; unfold coord in E0 at 2 3 4 5; cbn [nth] in E0; lra).
      assert (coord x 4 1 = -1) as -> by (unfold dart_p in E1; unfold coord in E1 at 2 3 4 5; cbn [nth] in E1; lra).
      unfold coord, dart_p. cbn [nth]. lra.
Qed.
Print Assumptions C120_triangles_stay_positive_refuted.
(** the dart: every hypothesis holds, energy 384 drops, area 16 is kept *)
Example C120_case : averaging_step dart_t (held dart_t dart_p None) dart_p dart_q /\ coherent dart_t /\
  energy dart_t dart_q < energy dart_t dart_p /\ 0 < movement dart_t dart_p dart_q /\ total_area dart_t dart_p = 16 /\ total_area dart_t dart_q = 16.
Proof.
  split; [apply dart_step; left; reflexivity|]. split; [unfold coherent; cbn; repeat (apply NoDup_cons; [cbn; intuition congruence|]); apply NoDup_nil|].
  unfold energy, movement, total_area, add_up, sides2, moved2, area, gap2, coord, c0, c1, c2. cbn. repeat split; lra.
Qed.
