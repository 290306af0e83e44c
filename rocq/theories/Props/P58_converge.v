(** C123: the sweeps of laplacian2 and the answer of laplacian2_fixed_point (exact arithmetic; the linear solver returns a solution).
    [balanced], [within], [apart_at_most]: Spec/Smooth.v. *)
From Coq Require Import List ZArith Reals Bool Arith Lia Lra.
From Verif Require Import Model.Base Model.SDF Model.Simplex Model.Mesh Model.Laplace Spec.MeshTopo Spec.Smooth Proofs.ListAux Proofs.MeshAux
  Proofs.EdgeProofs Proofs.TopoProofs Proofs.LaplaceProofs Proofs.LaplaceFixed Proofs.LinSolve Proofs.ConvergeProofs Props.P06_mesh Props.P08_laplace.
Import ListNotations.
Local Open Scope R_scope.

(** whatever tol: laplacian2 never ends farther (in the largest coordinate difference) from the balanced positions than it began *)
Theorem C123_never_farther : forall uniq p t max_iter tol pfix p' t' x M, uniq_ok uniq ->
  (forall r, In r t -> simplex 3 r) -> (forall r v, In r t -> In v r -> (v < length p)%nat) -> (forall x, In x p -> length x = 2%nat) ->
  (forall q, In q (asked pfix) -> length q = 2%nat) ->
  laplacian2 uniq p t max_iter tol pfix = Ok (p', t') ->
  balanced t (held t p pfix) p x -> apart_at_most M p x -> apart_at_most M p' x.
Proof.
  intros uniq p t k tol pfix p' t' x M HU HT HV HP HQ H [LX HB] A. destruct (laplacian2_spec uniq p t k tol pfix p' t' HU HT HV HP HQ H) as [_ [k' [_ ST]]].
  destruct p as [|p0 pr].
  { intros v j Lv. rewrite (steps_length _ _ _ _ _ ST) in Lv. cbn in Lv. lia. }
  assert (0 <= M) as MP. { eapply Rle_trans; [apply Rabs_pos|]. apply (A 0%nat 0%nat); cbn; lia. }
  set (p := p0 :: pr) in *. set (F := held t p pfix) in *.
  assert (keepsF F (length p) x p) as K by (split; [reflexivity|]; intros v j Lv Lj Fv; symmetry; apply (proj1 (HB v Lv) Fv j Lj)).
  apply (steps_apart t F (held_dec t p pfix) (length p) x LX (fun v Lv => proj2 (HB v Lv)) M k' p p' MP ST K A).
Qed.
Print Assumptions C123_never_farther.

(** with tol <= 0 all max_iter sweeps are made and the distance falls geometrically: every vertex has a held vertex within n steps, no vertex lies in
    more than d triangles *)
Theorem C123_geometric : forall uniq p t max_iter tol pfix x M n d, uniq_ok uniq ->
  (forall r, In r t -> simplex 3 r) -> (forall r v, In r t -> In v r -> (v < length p)%nat) -> (forall x, In x p -> length x = 2%nat) ->
  (forall q, In q (asked pfix) -> length q = 2%nat) -> (forall v, (v < length p)%nat -> exists r, In r t /\ In v r) ->
  (exists v, on_boundary t v) -> pfix <> Some [] -> tol <= 0 ->
  balanced t (held t p pfix) p x -> apart_at_most M p x ->
  (1 <= n)%nat -> (forall v, (v < length p)%nat -> within t (held t p pfix) n v) -> (forall v, (entities_on [v] t <= d)%nat) ->
  exists p', laplacian2 uniq p t max_iter tol pfix = Ok (p', t) /\ steps t (held t p pfix) max_iter p p' /\
    apart_at_most ((1 - (1 / (2 * INR d)) ^ n) ^ (max_iter / n) * M) p' x.
Proof.
  intros uniq p t k tol pfix x M n d HU HT HV HP HQ U B NF T [LX HB] A Ln HW HD.
  destruct (laplacian2_all uniq p t k tol pfix HU HT HV HP HQ U B NF T) as [p' [E ST]]. exists p'. split; [exact E|]. split; [exact ST|].
  destruct B as [vb Hb]. assert (vb < length p)%nat as Lb.
  { destruct Hb as [f [_ [_ [C F]]]]. destruct (on_some f t C) as [r [Hr HF]]. apply (HV r vb Hr (HF vb F)). }
  assert (0 <= M) as MP. { eapply Rle_trans; [apply Rabs_pos|]. apply (A vb 0%nat); [exact Lb|lia]. }
  assert (1 <= d)%nat as D1.
  { destruct (U vb Lb) as [r [Hr Hv]]. eapply Nat.le_trans; [|apply (HD vb)]. unfold entities_on.
    assert (In r (filter (fun r => forallb (has r) [vb]) t)) as I.
    { apply filter_In. split; [exact Hr|]. cbn. rewrite andb_true_r. apply has_in, Hv. }
    destruct (filter _ t); [destruct I|cbn; lia]. }
  apply le_INR in D1. cbn in D1.
  replace (1 / (2 * INR d)) with (/ (2 * INR d)) by (field; lra).
  rewrite (Nat.div_mod k n) in ST by lia. rewrite Nat.mul_comm in ST.
  apply (steps_geom t (held t p pfix) (held_dec t p pfix) (length p) HV (2 * INR d) ltac:(lra)) with (b := (k mod n)%nat) (p := p); try assumption.
  - intros v Lv. rewrite (links_total (length p) t v HT HV). apply Rmult_le_compat_l; [lra|]. apply le_INR, HD.
  - intros v Lv. apply (HB v Lv).
  - split; [reflexivity|]. intros v j Lv Lj Fv. symmetry. apply (proj1 (HB v Lv) Fv j Lj).
Qed.
Print Assumptions C123_geometric.

(** hence, when a chain of triangles leads from every vertex to the boundary, enough sweeps with tol <= 0 bring laplacian2 as near as wanted to what
    laplacian2_fixed_point returns *)
Theorem C123_limit_is_fixed_point : forall p t eps,
  (forall r, In r t -> simplex 3 r) -> (forall r v, In r t -> In v r -> (v < length p)%nat) -> (forall x, In x p -> length x = 2%nat) ->
  (forall v, (v < length p)%nat -> reaches_boundary t v) -> (forall v, (v < length p)%nat -> exists r, In r t /\ In v r) -> p <> [] -> 0 < eps ->
  exists N, forall uniq uniq' max_iter tol x, uniq_ok uniq -> uniq_ok uniq' -> (N <= max_iter)%nat -> tol <= 0 -> lap_solves uniq' p t x ->
    exists p', laplacian2 uniq p t max_iter tol None = Ok (p', t) /\ apart_at_most eps p' x.
Proof.
  intros p t eps HT HV HP HR U NP EP.
  assert (exists v, on_boundary t v) as B.
  { destruct p as [|p0 pr]; [congruence|]. pose proof (HR 0%nat ltac:(cbn; lia)) as H0. clear - H0. induction H0 as [v B|]; [exists v; exact B|assumption]. }
  destruct (reaches_bound t (length p) HR) as [m0 HW0]. set (m := S m0).
  assert (forall v, held t p None v <-> on_boundary t v) as HE by (intros v; split; [intros [H|[q [[] _]]]; exact H|intros H; left; exact H]).
  assert (forall i v, within t (on_boundary t) i v -> within t (held t p None) i v) as WE.
  { induction 1 as [i v H|i v u r Hr Hv Hu N W IH]; [apply within_here, HE, H|apply (within_step t _ i v u r); assumption]. }
  assert (forall v, (v < length p)%nat -> within t (held t p None) m v) as HW.
  { intros v Lv. apply (within_mono t _ m0); [apply WE, HW0, Lv|unfold m; lia]. }
  set (d := S (length t)).
  assert (forall v, (entities_on [v] t <= d)%nat) as HD.
  { intros v. unfold entities_on, d. pose proof (filter_length_le (fun r => forallb (has r) [v]) t). lia. }
  set (rho := 1 - (1 / (2 * INR d)) ^ m).
  assert (0 <= rho < 1) as RH.
  { unfold rho, d. rewrite S_INR. pose proof (pos_INR (length t)). set (w := 1 / (2 * (INR (length t) + 1))).
    assert (0 < w) by (unfold w; apply Rdiv_lt_0_compat; lra).
    assert (w <= 1). { unfold w, Rdiv. rewrite Rmult_1_l. rewrite <- Rinv_1. apply Rinv_le_contravar; lra. }
    pose proof (pow_lt w m ltac:(assumption)). assert (w ^ m <= 1) by (rewrite <- (pow1 m); apply pow_incr; lra). lra. }
  (** the initial distance: to the solution, which is one and the same *)
  destruct (solves_exists uniqR0 p t uniqR0_ok HT HV HR) as [y HY].
  destruct (apart_bound p y) as [M [MP MA]].
  destruct (pow_lt_1_zero rho ltac:(rewrite Rabs_pos_eq; lra) (eps / (M + 1)) ltac:(apply Rdiv_lt_0_compat; lra)) as [K HK].
  exists (K * m)%nat. intros uniq uniq' k tol x HU HU' Lk T HS.
  assert (forall v j, (v < length p)%nat -> (j < 2)%nat -> coord x v j = coord y v j) as XY.
  { intros v j Lv Lj. apply (solves_unique uniqR0 p t x y uniqR0_ok HT HV HR); try assumption.
    destruct HS as [LX HS]. split; [exact LX|]. intros w i Lw Li. specialize (HS w i Lw Li).
    pose proof (proj2 (boundary_vertices_spec uniqR0 2 t (or_introl eq_refl) uniqR0_ok HT) w) as B1.
    pose proof (proj2 (boundary_vertices_spec uniq' 2 t (or_introl eq_refl) HU' HT) w) as B2.
    assert (existsb (Nat.eqb w) (get_boundary_vertices uniqR0 2 t) = existsb (Nat.eqb w) (get_boundary_vertices uniq' 2 t)) as EB.
    { apply eq_true_iff_eq. rewrite !mem_fixed. rewrite B1, B2. reflexivity. }
    unfold lap_matrix, lap_rhs in *. rewrite EB. exact HS. }
  assert (balanced t (held t p None) p x) as BX.
  { split; [apply HS|]. intros v Lv. destruct (C54_solution_averages uniq' p t x HU' HT HV HS v Lv) as [S1 S2]. split.
    - intros Fv j Lj. apply S1; [apply HE, Fv|exact Lj].
    - intros NF. apply S2; [intros H; apply NF, HE, H|apply U, Lv]. }
  assert (apart_at_most M p x) as AX. { intros v j Lv Lj. rewrite XY by assumption. apply MA; assumption. }
  destruct (C123_geometric uniq p t k tol None x M m d HU HT HV HP ltac:(intros q []) U B ltac:(discriminate) T BX AX ltac:(unfold m; lia) HW HD) as [p' [E [_ A]]].
  exists p'. split; [exact E|]. intros v j Lv Lj. eapply Rle_trans; [apply A; assumption|]. fold rho.
  specialize (HK (k / m)%nat). assert (K <= k / m)%nat as LK by (apply Nat.div_le_lower_bound; [unfold m; lia|lia]). specialize (HK LK).
  rewrite Rabs_pos_eq in HK by (apply pow_le; lra). apply Rle_trans with (eps / (M + 1) * (M + 1)); [|right; field; lra].
  apply Rmult_le_compat; [apply pow_le; lra|exact MP|lra|lra].
Qed.
Print Assumptions C123_limit_is_fixed_point.

(** with tol > 0 - the default is 0.01 - it may stop after one sweep, far away from that answer, however many sweeps were allowed *)
Theorem C123_positive_tol_stops_far_refuted : exists p t x v,
  (forall r, In r t -> simplex 3 r) /\ (forall r v, In r t -> In v r -> (v < length p)%nat) /\ (forall v, (v < length p)%nat -> reaches_boundary t v) /\
  forall uniq tol max_iter, uniq_ok uniq -> 0 < tol -> (1 <= max_iter)%nat ->
  lap_solves uniq p t x /\ exists p', laplacian2 uniq p t max_iter tol None = Ok (p', t) /\ 300 < Rabs (coord p' v 0 - coord x v 0).
Proof.
  destruct far_ok as [HT [HV [U B]]].
  exists far_p, far_t, [[0;0];[4;0];[4;4];[0;4];[16/7;2];[24/7;2]], 4%nat. split; [exact HT|]. split; [exact HV|]. split.
  - intros v Lv. cbn in Lv. assert (v < 4 \/ v = 4 \/ v = 5)%nat as [L4|[->| ->]] by lia.
    + apply reach_here, B, L4.
    + apply (reach_step far_t 4 0 [0;1;4]%nat); [cbn; tauto..|lia|]. apply reach_here, B. lia.
    + apply (reach_step far_t 5 1 [1;5;4]%nat); [cbn; tauto..|lia|]. apply reach_here, B. lia.
  - intros uniq tol k HU TP Lk. split.
    + split; [reflexivity|]. intros v j Lv Lj. cbn [length far_p] in Lv.
      pose proof (proj2 (boundary_vertices_spec uniq 2 far_t (or_introl eq_refl) HU HT) v) as BS. fold (on_boundary far_t v) in BS.
      unfold lap_matrix, lap_rhs. rewrite rtotal_seq.
      destruct (existsb (Nat.eqb v) (get_boundary_vertices uniq 2 far_t)) eqn:E.
      * apply mem_fixed, BS, B in E. destruct v as [|[|[|[|v]]]]; try lia; destruct j as [|[|j]]; try lia; cbn; lra.
      * assert (v = 4 \/ v = 5)%nat as EV.
        { destruct (Nat.lt_ge_cases v 4) as [L4|L4]; [|lia]. exfalso. pose proof (proj2 (mem_fixed _ _) (proj2 BS (proj2 (B v) L4))). congruence. }
        destruct EV as [->| ->]; destruct j as [|[|j]]; try lia; unfold coo_at, rtotal; cbn; lra.
    + exists far_q. split; [|unfold coord; cbn; rewrite Rabs_pos_eq; lra].
      apply C53_stops_when_edges_shrink; try assumption.
      * rows2.
      * intros x [].
      * exists 0%nat. apply B. lia.
      * discriminate.
      * apply far_step; try reflexivity; [apply far_held|rows2|..].
        -- intros v Lv. destruct v as [|[|[|[|v]]]]; [reflexivity..|lia].
        -- intros j Lj. destruct j as [|[|j]]; [..|lia]; unfold coord; cbn; lra.
        -- intros j Lj. destruct j as [|[|j]]; [..|lia]; unfold coord; cbn; lra.
      * intros r a b Hr [i [j [Li [Lj [Nij [<- <-]]]]]]. cbn in Hr.
        repeat (destruct Hr as [<- | Hr]; [cbn [length] in Li, Lj; destruct i as [|[|[|i]]]; try lia; destruct j as [|[|[|j]]]; try lia; unfold gap2; cbn; lra|]). destruct Hr.
Qed.
Print Assumptions C123_positive_tol_stops_far_refuted.
(** the hypotheses hold on that mesh: 6 triangles, so 10 sweeps with tol = 0 reduce the distance by (1 - 1/12)^10 at least *)
Example C123_case : exists p', laplacian2 uniqR0 far_p far_t 10 0 None = Ok (p', far_t) /\ steps far_t (held far_t far_p None) 10 far_p p' /\
  apart_at_most ((1 - (1 / (2 * INR 6)) ^ 1) ^ (10 / 1) * 2000) p' [[0;0];[4;0];[4;4];[0;4];[16/7;2];[24/7;2]].
Proof.
  destruct far_ok as [HT [HV [U B]]].
  apply C123_geometric; try assumption; try apply uniqR0_ok; try lra; try lia; try discriminate.
  - rows2.
  - intros q [].
  - exists 0%nat. apply B. lia.
  - split; [reflexivity|]. intros v Lv. cbn in Lv. rewrite far_held. split.
    + intros L4 j Lj. destruct v as [|[|[|[|v]]]]; try lia; reflexivity.
    + intros N4. assert (v = 4 \/ v = 5)%nat as [->| ->] by lia; (split; [unfold links; cbn; lra|]); intros j Lj; destruct j as [|[|j]]; try lia; unfold links, coord; cbn; lra.
  - intros v j Lv Lj. cbn in Lv. destruct v as [|[|[|[|[|[|v]]]]]]; try lia; destruct j as [|[|j]]; try lia; unfold coord; cbn; apply Rabs_le; lra.
  - intros v Lv. cbn in Lv. assert (v < 4 \/ v = 4 \/ v = 5)%nat as [L4|[->| ->]] by lia.
    + apply within_here, far_held, L4.
    + apply (within_step far_t _ 0 4 0 [0;1;4]%nat); [cbn; tauto..|lia|]. apply within_here, far_held. lia.
    + apply (within_step far_t _ 0 5 1 [1;5;4]%nat); [cbn; tauto..|lia|]. apply within_here, far_held. lia.
  - intros v. unfold entities_on. pose proof (filter_length_le (fun r => forallb (has r) [v]) far_t). cbn [length far_t] in *. lia.
Qed.
