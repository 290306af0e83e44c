(** C114: where the vertices and cells of the returned mesh come from; what mesh_improvement does. *)
From Coq Require Import Reals List Arith Bool ZArith Lia Lra Permutation.
From Verif Require Import Model.Base Model.SDF Model.Simplex Model.Mesh Model.Formulas Model.Laplace Model.Forces Model.Newton Model.Generator Spec.MeshTopo Spec.Smooth Spec.Bars Spec.Origin
  Proofs.ListAux Proofs.MeshAux Proofs.FixMeshProofs Proofs.NewtonProofs Proofs.GenLoop Proofs.TopoProofs Proofs.SDFBox Props.P08_laplace Props.P18_generate Props.P22_fixed Props.P46_checked.
Import ListNotations.
Local Open Scope R_scope.

(** the keys by which fix_mesh compares points tell the points of q apart (they are np.round(p/snap)*snap with snap = 1e-... of the extent) *)
Definition tells_apart (B : backend) (q : list pt) : Prop :=
  forall l x y, vertices_from l q -> In x l -> In y l -> b_key B l x = b_key B l y -> x = y.

Lemma cells_trans p t q u w z : cells_from p t q u -> cells_from q u w z -> cells_from p t w z.
Proof. intros H1 H2 r I. destruct (H1 r I) as (s & Is & P1). destruct (H2 s Is) as (s' & Is' & P2). exists s'. split; [exact Is'|]. etransitivity; eassumption. Qed.
Lemma cells_incl p t q u u' : cells_from p t q u -> (forall r, In r u -> In r u') -> cells_from p t q u'.
Proof. intros H1 H2 r I. destruct (H1 r I) as (s & Is & P1). exists s. auto. Qed.

Lemma fix_from B p t p' t' : good_backend B -> run_fix B p t = Ok (p', t') ->
  vertices_from p' p /\ (tells_apart B p -> cells_from p' t' p t).
Proof.
  intros [HK HR] H. unfold run_fix in H. destruct (fix_mesh _ _ _ _ _ _ _) as [[[p1 t1] jx]|] eqn:EF; [|discriminate]. injection H as -> ->.
  pose proof (fix_mesh_valid _ _ _ _ _ _ _ _ EF) as VV. destruct (fix_mesh_clean _ _ _ HK HR _ _ VV _ _ _ _ _ EF) as [[A C D F G I] U].
  split; [exact C|]. intros TA r Ir. destruct (G r Ir) as (s & Is & PM). exists s. split; [exact Is|]. unfold row_keys in PM. unfold corners.
  rewrite <- (map_map (fun v => nth v p' []) (b_key B p)), <- (map_map (fun v => nth v p []) (b_key B p)) in PM. eapply perm_map_inj; [|exact PM].
  intros x y Ix Iy E. apply in_map_iff in Ix as (v & <- & Iv). apply in_map_iff in Iy as (w & <- & Iw).
  apply (TA p); [intros z Z; exact Z| | |exact E].
  - apply C, nth_In, (A r v Ir Iv).
  - apply nth_In. apply (proj1 (valid_rows_spec _ _) VV s w Is Iw).
Qed.
Lemma tells_part B q l : tells_apart B q -> vertices_from l q -> tells_apart B l.
Proof. intros H V l' x y V' . apply H. intros z Z. apply V, V', Z. Qed.
Lemma delete_from B mq p t p' t' : good_backend B -> run_delete B mq p t = Ok (p', t') ->
  vertices_from p' p /\ (tells_apart B p -> cells_from p' t' p t).
Proof.
  intros HB H. apply run_delete_fix in H. destruct (fix_from _ _ _ _ _ HB H) as (A & C). split; [exact A|]. intros T. eapply cells_incl; [apply C, T|]. intros r. exact (GenLoop.kept_rows_in _ _ _ _ r).
Qed.
Lemma linter_from B dim mq p t p' t' : good_backend B -> linter B dim mq p t = Ok (p', t') ->
  vertices_from p' p /\ (tells_apart B p -> cells_from p' t' p t).
Proof.
  intros HB H. unfold linter in H. destruct (run_fix B p _) as [[p1 t1]|] eqn:E1; [|discriminate]. cbn [rbind fst snd] in H. destruct (fix_from _ _ _ _ _ HB E1) as (A & C).
  assert (C' : tells_apart B p -> cells_from p1 t1 p t) by (intros T; eapply cells_incl; [apply C, T|]; intros r; exact (GenLoop.drop_rows_in _ _ r)).
  destruct (dim =? 2)%nat.
  - destruct (run_delete B mq p1 t1) as [[p2 t2]|] eqn:E2; [|discriminate]. cbn [rbind fst snd] in H. destruct (is_manifold _ _ _ _); [|discriminate]. cbn [rbind snd] in H.
    destruct t2 eqn:Q; [discriminate|]. rewrite <- Q in *. clear Q. injection H as <- <-. destruct (delete_from _ _ _ _ _ _ HB E2) as (A2 & C2). split; [intros x X; apply A, A2, X|].
    intros T. eapply cells_trans; [apply C2, (tells_part B p); assumption|apply C', T].
  - cbn [rbind snd] in H. destruct t1 eqn:Q; [discriminate|]. rewrite <- Q in *. clear Q. injection H as <- <-. split; [exact A|exact C'].
Qed.
Lemma check_from B dim checks p t p' t' : good_backend B -> (if checks : bool then linter B dim (10 / 100) p t else run_fix B p t) = Ok (p', t') ->
  vertices_from p' p /\ (tells_apart B p -> cells_from p' t' p t).
Proof. intros HB H. destruct checks; [eapply linter_from; eassumption|eapply fix_from; eassumption]. Qed.
(** the mesh the last step starts from *)
Lemma termination_from B dim smooth checks p t p' t' : good_backend B -> termination B dim smooth checks p t = Ok (p', t') ->
  (dim <> 2%nat \/ smooth = false -> vertices_from p' p /\ (tells_apart B p -> cells_from p' t' p t)) /\
  (dim = 2%nat -> smooth = true -> exists p2 t2, vertices_from p2 p /\ (tells_apart B p -> cells_from p2 t2 p t) /\
     (exists p0 t0, run_fix B p0 t0 = Ok (p2, t2)) /\
     vertices_from p' (b_solve B p2 t2) /\ (tells_apart B (b_solve B p2 t2) -> cells_from p' t' (b_solve B p2 t2) t2)).
Proof.
  intros HB H. unfold termination in H. destruct (Nat.eqb_spec dim 2) as [D|D].
  - destruct (run_fix B p t) as [[p1 t1]|] eqn:E1; [|discriminate]. cbn [rbind fst snd] in H. destruct (fix_from _ _ _ _ _ HB E1) as (A & C).
    destruct (run_delete B (15/100) p1 t1) as [[p2 t2]|] eqn:E2; [|discriminate]. cbn [rbind fst snd] in H. destruct (delete_from _ _ _ _ _ _ HB E2) as (A2 & C2).
    assert (V2 : vertices_from p2 p) by (intros x X; apply A, A2, X).
    assert (CC : tells_apart B p -> cells_from p2 t2 p t) by (intros T; eapply cells_trans; [apply C2, (tells_part B p); assumption|apply C, T]).
    destruct smooth; cbn [fst snd] in H; destruct (check_from _ _ _ _ _ _ _ HB H) as (A3 & C3).
    + split; [intros [X|X]; [contradiction|discriminate]|]. intros _ _. exists p2, t2. split; [exact V2|]. split; [exact CC|]. split; [do 2 eexists; exact (run_delete_fix _ _ _ _ _ _ E2)|]. split; assumption.
    + split; [|discriminate]. intros _. split; [intros x X; apply V2, A3, X|]. intros T. eapply cells_trans; [apply C3, (tells_part B p); assumption|apply CC, T].
  - cbn [rbind fst snd] in H. destruct (check_from _ _ _ _ _ _ _ HB H) as (A3 & C3). split; [intros _; split; assumption|]. intros E. contradiction.
Qed.

(** p' is p with the vertices of the boundary of t that are off the level set of fd moved; t' are the cells whose centre is then inside by tol *)
Definition projected (B : backend) (dim : nat) (fd : pt -> R) (tol : R) (p : list pt) (t : list row) (p' : list pt) (t' : list row) : Prop :=
  length p' = length p /\
  (forall v, (v < length p)%nat -> ~ In v (get_boundary_vertices (b_uniqR B) dim t) \/ fd (nth v p []) = 0 -> nth v p' [] = nth v p []) /\
  (forall r, In r t' <-> In r t /\ fd (cell_centre dim p' r) < - tol).
Lemma finish_from B P p t p' t' : finish B P p t = Ok (p', t') -> exists p1 t1,
  termination B (g_dim P) (match g_subs P with None => g_improve P | Some _ => false end) (g_checks P) p t = Ok (p1, t1) /\
  projected B (g_dim P) (g_fd P) (g_h0 P * (1 / 1000)) p1 t1 p' t'.
Proof.
  intros H. unfold finish in H. destruct (termination _ _ _ _ _ _) as [[p1 t1]|e]; [|discriminate]. cbn [rbind fst snd] in H.
  destruct (improve_level_set _ _ _ _ _ _) as [p2|e] eqn:I; [|discriminate]. cbn [rbind] in H. injection H as <- <-. exists p1, t1. split; [reflexivity|].
  unfold improve_level_set in I. unfold projected. destruct (get_boundary_vertices _ _ t1) as [|b bid]; [discriminate|]. injection I as <-.
  destruct (improve_loop_spec (g_fd P) (g_deps P) (b :: bid) (seq 0 5) 1 p1) as (S1 & S2 & S3 & _). split; [exact S1|]. split.
  - intros v Lv O. destruct (in_dec Nat.eq_dec v (b :: bid)) as [Y|N]; [|apply S2; assumption]. destruct O as [O|O]; [contradiction|]. apply S3; assumption.
  - intros r. unfold remove_outside. rewrite filter_In, Rltb_true, centroid_centre. reflexivity.
Qed.

Definition smooths (d : dom_arg) (s : size_arg) (o : gen_opts) : Prop := Nat.div2 (length (full_bbox d s)) = 2%nat /\ o_subdomains o = None /\ o_mesh_improvement o = true.
Lemma prepared_more B d s o P p : prepare B d s o = Ok (P, p) -> g_subs P = o_subdomains o /\ g_improve P = o_mesh_improvement o.
Proof.
  unfold prepare. destruct (meshed_fd d s) as [fd|]; [|discriminate]. destruct (the_h0 s o) as [h0|]; [|discriminate]. destruct (Rltb h0 0); [discriminate|].
  destruct (negb _); [discriminate|]. destruct (start_points _ _ _ _ _ _ _ _ _) as [q|]; [|discriminate]. cbn [rbind]. destruct (Rltb _ 0); [discriminate|].
  destruct q; [discriminate|]. intros H. injection H as <- _. repeat split.
Qed.
(** Without smoothing (3D, subdomains, or mesh_improvement=False), checked or not: the mesh before the last step has only vertices of the last triangulation,
    and, if no two of its points are merged, only cells of it; the last step moves boundary vertices off the level set. *)
Theorem C114_unsmoothed : forall B d s o fuel p t k, good_backend B -> generate_mesh B d s o fuel = Some (Ok (p, t), k) -> ~ smooths d s o ->
  exists P p0 q u p1 t1, prepare B d s o = Ok (P, p0) /\ triangulated B P p0 (k - 1) q u /\
    vertices_from p1 q /\ (tells_apart B q -> cells_from p1 t1 q u) /\
    projected B (g_dim P) (g_fd P) (g_h0 P * (1 / 1000)) p1 t1 p t.
Proof.
  intros B d s o fuel p t k HB H NS. destruct (C86_last_triangulation _ _ _ _ _ _ _ H) as (P & p0 & k' & q & u & HP & -> & HT & HE).
  destruct (finish_from _ _ _ _ _ _ HE) as (p1 & t1 & T & PR). destruct (termination_from _ _ _ _ _ _ _ _ HB T) as (N & _).
  destruct (prepared _ _ _ _ _ _ HP) as (D & _). destruct (prepared_more _ _ _ _ _ _ HP) as (SU & IM).
  destruct N as (V & C). { unfold smooths in NS. rewrite <- D, <- SU, <- IM in NS. destruct (Nat.eq_dec (g_dim P) 2) as [E|E]; [right|left; exact E]. destruct (g_subs P); [reflexivity|]. destruct (g_improve P); [|reflexivity]. exfalso. apply NS. auto. }
  exists P, p0, q, u, p1, t1. split; [exact HP|]. split; [replace (S k' - 1)%nat with k' by lia; exact HT|]. split; [exact V|]. split; [|exact PR].
  intros TA. eapply cells_incl; [apply C, TA|]. intros r I. unfold remove_outside in I. apply filter_In in I. apply I.
Qed.
Print Assumptions C114_unsmoothed.
(** So with one iteration the vertices that are not boundary vertices off the level set are starting points: those given by the user, if any. *)
Theorem C114_one_iteration : forall B d s o fuel points p t k, good_backend B -> faithful_tri B -> generate_mesh B d s o fuel = Some (Ok (p, t), k) -> ~ smooths d s o ->
  o_max_iter o = 1 -> o_points o = Some points ->
  exists fd h0 p1 t1, meshed_fd d s = Some fd /\ the_h0 s o = Some h0 /\ vertices_from p1 points /\
    projected B (Nat.div2 (length (full_bbox d s))) fd (h0 * (1 / 1000)) p1 t1 p t.
Proof.
  intros B d s o fuel points p t k HB HF H NS M1 PO. destruct (C114_unsmoothed _ _ _ _ _ _ _ _ HB H NS) as (P & p0 & q & u & p1 & t1 & HP & HT & V & _ & PR).
  destruct (prepared _ _ _ _ _ _ HP) as (D & F & H0 & _ & MI).
  assert (K1 : k = 1%nat).
  { pose proof H as H'. unfold generate_mesh in H'. rewrite HP in H'. destruct (loop_ok _ _ _ _ _ _ _ H') as (_ & E & _). rewrite MI, M1 in E. apply (INR_eq k 1). change (INR 1) with 1. lra. }
  subst k. cbn [Nat.sub] in HT. exists (g_fd P), (g_h0 P), p1, t1. split; [exact F|]. split; [exact H0|]. rewrite <- D. split; [|exact PR].
  intros x X. apply V in X. inversion HT as [q' u' E|]; subst. specialize (HF 0%nat p0 x). rewrite E in HF. apply HF in X. clear - X HP PO.
  unfold prepare in HP. destruct (meshed_fd d s) as [fd|]; [|discriminate]. destruct (the_h0 s o) as [h0|]; [|discriminate]. destruct (Rltb h0 0); [discriminate|].
  destruct (negb _); [discriminate|]. unfold start_points in HP. rewrite PO in HP. cbn [rbind] in HP. destruct (Rltb _ 0); [discriminate|]. destruct points; [discriminate|]. injection HP as _ <-. exact X.
Qed.
Print Assumptions C114_one_iteration.

(** With smoothing (2D, no subdomains, mesh_improvement=True): the cleaned part (p2, t2) of the last triangulation is smoothed; if the solver solves the system, then every vertex of p2
    on the boundary of t2 stays where it is, every other one is at the average of its neighbours; the mesh before the last step has these vertices and no other. *)
Theorem C114_smoothed : forall B d s o fuel p t k, good_backend B -> generate_mesh B d s o fuel = Some (Ok (p, t), k) -> smooths d s o ->
  exists P p0 q u p2 t2 p1 t1, prepare B d s o = Ok (P, p0) /\ triangulated B P p0 (k - 1) q u /\
    vertices_from p2 q /\ (tells_apart B q -> cells_from p2 t2 q u) /\
    (let x := b_solve B p2 t2 in
     vertices_from p1 x /\ (tells_apart B x -> cells_from p1 t1 x t2) /\
     (lap_solves (b_uniqR B) p2 t2 x -> tells_apart B q -> (forall r, In r u -> length r = 3%nat /\ NoDup (corners q r)) ->
      forall v, (v < length p2)%nat ->
        (on_boundary t2 v -> forall j, (j < 2)%nat -> coord x v j = coord p2 v j) /\
        (~ on_boundary t2 v -> averages t2 x x v))) /\
    projected B 2 (g_fd P) (g_h0 P * (1 / 1000)) p1 t1 p t.
Proof.
  intros B d s o fuel p t k HB H (SD & SS & SI). destruct (C86_last_triangulation _ _ _ _ _ _ _ H) as (P & p0 & k' & q & u & HP & -> & HT & HE).
  destruct (finish_from _ _ _ _ _ _ HE) as (p1 & t1 & T & PR). destruct (termination_from _ _ _ _ _ _ _ _ HB T) as (_ & N).
  destruct (prepared _ _ _ _ _ _ HP) as (D & _). destruct (prepared_more _ _ _ _ _ _ HP) as (SU & IM). rewrite SS in SU. rewrite SI in IM. rewrite SD in D. rewrite SU in N. rewrite D in *.
  destruct (N eq_refl IM) as (p2 & t2 & V2 & C2 & (p00 & t00 & RF) & V1 & C1).
  assert (C2' : tells_apart B q -> cells_from p2 t2 q u).
  { intros TA. eapply cells_incl; [apply C2, TA|]. intros r I. unfold remove_outside in I. apply filter_In in I. apply I. }
  exists P, p0, q, u, p2, t2, p1, t1. split; [exact HP|]. split; [replace (S k' - 1)%nat with k' by lia; exact HT|]. split; [exact V2|]. split; [exact C2'|].
  split; [|exact PR]. cbv zeta. split; [exact V1|]. split; [exact C1|]. intros LS TA WD v Lv.
  unfold run_fix in RF. destruct (fix_mesh _ _ _ _ _ _ _) as [[[p3 t3] jx]|] eqn:EF; [|discriminate]. injection RF as -> ->. destruct HB as [HK HR].
  pose proof (fix_mesh_valid _ _ _ _ _ _ _ _ EF) as VV. destruct (fix_mesh_clean _ _ _ HK HR _ _ VV _ _ _ _ _ EF) as [[A _ _ _ _ _] U].
  assert (ST : forall r, In r t2 -> simplex 3 r).
  { intros r I. destruct (C2' TA r I) as (r0 & I0 & PM). destruct (WD r0 I0) as (L3 & ND). split.
    - apply Permutation_length in PM. unfold corners in PM. rewrite !map_length in PM. congruence.
    - apply (NoDup_map_inv (fun v => nth v p2 [])). apply (Permutation_NoDup (Permutation_sym PM) ND). }
  destruct (C54_solution_averages (b_uniqR B) p2 t2 (b_solve B p2 t2) HR ST A LS v Lv) as (X & Y). split; [exact X|]. intros NB. apply Y; [exact NB|].
  destruct (U eq_refl v Lv) as (r & I & Iv). exists r. auto.
Qed.
Print Assumptions C114_smoothed.

(** ---- nothing else is dropped ---- *)
Lemma fix_all B p t p' t' : good_backend B -> run_fix B p t = Ok (p', t') -> tells_apart B p -> cells_from p t p' t'.
Proof.
  intros [HK HR] H. unfold run_fix in H. destruct (fix_mesh _ _ _ _ _ _ _) as [[[p1 t1] jx]|] eqn:EF; [|discriminate]. injection H as -> ->.
  pose proof (fix_mesh_valid _ _ _ _ _ _ _ _ EF) as VV. destruct (fix_mesh_clean _ _ _ HK HR _ _ VV _ _ _ _ _ EF) as [[A C D F G I] U].
  intros TA r Ir. destruct (F r Ir) as (s & Is & PM). exists s. split; [exact Is|]. apply Permutation_sym. unfold row_keys in PM. unfold corners.
  rewrite <- (map_map (fun v => nth v p' []) (b_key B p)), <- (map_map (fun v => nth v p []) (b_key B p)) in PM. eapply perm_map_inj; [|exact PM].
  intros x y Ix Iy E. apply in_map_iff in Ix as (v & <- & Iv). apply in_map_iff in Iy as (w & <- & Iw).
  apply (TA p); [intros z Z; exact Z| | |exact E].
  - apply C, nth_In, (A s v Is Iv).
  - apply nth_In. apply (proj1 (valid_rows_spec _ _) VV r w Ir Iw).
Qed.
(** of quality below mq, whatever the order of the corners is *)
Definition poor_cell (mq : R) (c : list pt) : Prop := exists l x, Permutation l c /\ simp_qual l = Some x /\ x < mq.
Lemma delete_all B mq p t p' t' : good_backend B -> run_delete B mq p t = Ok (p', t') -> tells_apart B p ->
  forall r, In r t -> (exists s, In s t' /\ Permutation (corners p r) (corners p' s)) \/ poor_cell mq (corners p r).
Proof.
  intros HB H TA r I. apply run_delete_fix in H. pose proof (fix_all _ _ _ _ _ HB H TA) as FA. destruct (In_nth _ _ [] I) as (e & Le & Ee).
  set (del := filter (fun e => poor mq (entity_qual p t e)) (get_boundary_entities (b_uniqR B) 2 t (b_ve B t))).
  destruct (existsb (Nat.eqb e) del) eqn:X.
  - right. apply existsb_exists in X. destruct X as (e' & I' & Q). apply Nat.eqb_eq in Q. subst e'. unfold del in I'. apply filter_In in I'. destruct I' as (_ & Q).
    unfold poor, entity_qual in Q. rewrite Ee in Q. exists (corners p r). change (map (fun v => nth v p []) r) with (corners p r) in Q. destruct (simp_qual (corners p r)) as [x|]; [|discriminate].
    exists x. split; [reflexivity|]. split; [reflexivity|]. apply Rltb_true, Q.
  - left. apply FA. unfold kept_rows. fold del. apply in_map_iff. exists e. split; [exact Ee|]. apply filter_In. split; [apply in_seq; lia|]. rewrite X. reflexivity.
Qed.
(** Without smoothing and without checks: every cell of the last triangulation whose centre is inside by geps is in the mesh before the last step, except, in 2D, triangles of
    quality below 0.15.  (C42: only triangles touching the boundary are looked at.) *)
Theorem C114_nothing_else_dropped : forall B d s o fuel p t k, good_backend B -> generate_mesh B d s o fuel = Some (Ok (p, t), k) -> ~ smooths d s o -> o_perform_checks o = false ->
  exists P p0 q u p1 t1, prepare B d s o = Ok (P, p0) /\ triangulated B P p0 (k - 1) q u /\ projected B (g_dim P) (g_fd P) (g_h0 P * (1 / 1000)) p1 t1 p t /\
    (tells_apart B q -> forall r, In r u -> g_fd P (cell_centre (g_dim P) q r) < - g_geps P ->
      (exists r1, In r1 t1 /\ Permutation (corners q r) (corners p1 r1)) \/ (g_dim P = 2%nat /\ poor_cell (15 / 100) (corners q r))).
Proof.
  intros B d s o fuel p t k HB H NS NC. destruct (C86_last_triangulation _ _ _ _ _ _ _ H) as (P & p0 & k' & q & u & HP & -> & HT & HE).
  destruct (finish_from _ _ _ _ _ _ HE) as (p1 & t1 & T & PR).
  destruct (prepared _ _ _ _ _ _ HP) as (D & _ & _ & CH & _). destruct (prepared_more _ _ _ _ _ _ HP) as (SU & IM).
  exists P, p0, q, u, p1, t1. split; [exact HP|]. split; [replace (S k' - 1)%nat with k' by lia; exact HT|]. split; [exact PR|].
  intros TA r I IN. assert (IK : In r (remove_outside (g_dim P) (g_fd P) (g_geps P) q u)) by (unfold remove_outside; apply filter_In; split; [exact I|]; apply Rltb_true; rewrite centroid_centre; exact IN).
  set (w := remove_outside (g_dim P) (g_fd P) (g_geps P) q u) in *. clearbody w. clear HT HE I IN. unfold termination in T. rewrite CH, NC in T.
  assert (SM : g_dim P = 2%nat -> match g_subs P with None => g_improve P | Some _ => false end = false).
  { intros E. unfold smooths in NS. rewrite <- D, <- SU, <- IM in NS. destruct (g_subs P); [reflexivity|]. destruct (g_improve P); [|reflexivity]. exfalso. apply NS. auto. }
  destruct (Nat.eqb_spec (g_dim P) 2) as [E2|E2].
  - rewrite (SM E2) in T. destruct (run_fix B q w) as [[pa ta]|] eqn:EA; [|discriminate]. cbn [rbind fst snd] in T. destruct (fix_from _ _ _ _ _ HB EA) as (VA & _).
    destruct (run_delete B (15/100) pa ta) as [[pb tb]|] eqn:EB; [|discriminate]. cbn [rbind fst snd] in T. destruct (delete_from _ _ _ _ _ _ HB EB) as (VB & _).
    assert (TAa : tells_apart B pa) by (eapply tells_part; eassumption). assert (TAb : tells_apart B pb) by (eapply tells_part; eassumption).
    destruct (fix_all _ _ _ _ _ HB EA TA r IK) as (ra & Ia & Pa). destruct (delete_all _ _ _ _ _ _ HB EB TAa ra Ia) as [(rb & Ib & Pb)|(l & x & Pl & Q & L)].
    + left. destruct (fix_all _ _ _ _ _ HB T TAb rb Ib) as (rc & Ic & Pc). exists rc. split; [exact Ic|]. rewrite Pa, Pb. exact Pc.
    + right. split; [exact E2|]. exists l, x. split; [rewrite Pa; exact Pl|]. split; assumption.
  - cbn [rbind fst snd] in T. left. destruct (fix_all _ _ _ _ _ HB T TA r IK) as (rc & Ic & Pc). exists rc. auto.
Qed.
Print Assumptions C114_nothing_else_dropped.

(** ---- cases ---- *)
(** the run of C69_case (3D) with a triangulation that gives back the points it is given *)
Definition true_backend : backend :=
  mkBackend (fun _ p => (p, two_tets)) (nodup key_dec) (nodup row_dec) (fun _ x => map up x) ve_pairs (fun p _ => p) (fun n => repeat 0 n).
Lemma true_run : generate_mesh true_backend (DFunction deep_then_shallow [0; 1; 0; 1; 0; 1]) (SScalar 1) five_opts 1 =
  generate_mesh five_backend (DFunction deep_then_shallow [0; 1; 0; 1; 0; 1]) (SScalar 1) five_opts 1.
Proof.
  unfold generate_mesh.
  assert (prepare true_backend (DFunction deep_then_shallow [0; 1; 0; 1; 0; 1]) (SScalar 1) five_opts = prepare five_backend (DFunction deep_then_shallow [0; 1; 0; 1; 0; 1]) (SScalar 1) five_opts) as -> by reflexivity.
  destruct (prepare five_backend (DFunction deep_then_shallow [0; 1; 0; 1; 0; 1]) (SScalar 1) five_opts) as [[P p]|] eqn:E; [|reflexivity].
  assert (p = five) as ->.
  { unfold prepare in E. cbn [meshed_fd size_bbox dom_fd full_bbox dom_bbox length Nat.div2 Nat.eqb orb negb the_h0 size_hmin start_points five_opts o_points o_max_iter rbind] in E.
    rewrite (proj2 (Rltb_false 1 0)) in E by lra. cbn [orb negb] in E. unfold five in E. fold five in E. cbv iota in E. injection E as _ <-. reflexivity. }
  cbn [mesh_loop true_backend five_backend b_tri]. reflexivity.
Qed.
Example C114_case_3d : exists p t, good_backend true_backend /\ faithful_tri true_backend /\ t <> [] /\
  generate_mesh true_backend (DFunction deep_then_shallow [0; 1; 0; 1; 0; 1]) (SScalar 1) five_opts 1 = Some (Ok (p, t), 1%nat) /\
  ~ smooths (DFunction deep_then_shallow [0; 1; 0; 1; 0; 1]) (SScalar 1) five_opts /\ o_max_iter five_opts = 1 /\ o_points five_opts = Some five /\ o_perform_checks five_opts = false /\ tells_apart true_backend five.
Proof.
  destruct C69_case as (p & t & _ & N & H). exists p, t. split; [split; apply nodup_uniq_ok|]. split; [intros k q x; reflexivity|]. split; [exact N|]. split; [rewrite true_run; exact H|].
  split; [intros (D & _); discriminate|]. split; [reflexivity|]. split; [reflexivity|]. split; [reflexivity|].
  intros l x y V Ix Iy E. apply V in Ix, Iy. cbn [true_backend b_key] in E. change 0 with (IZR 0) in *. change 1 with (IZR 1) in *.
  unfold five in Ix, Iy. cbn [In] in Ix, Iy.
  repeat (destruct Ix as [<- |Ix]; [repeat (destruct Iy as [<- |Iy]; [first [reflexivity|exfalso; cbn [map] in E; rewrite ?up_IZR in E; discriminate]|]); destruct Iy|]). destruct Ix.
Qed.
(** the run of C111_case (2D, smoothing on): all four vertices are on the boundary, so the identity solves the system *)
Example C114_case_2d : good_backend quad_backend /\ generate_mesh quad_backend square (SScalar 4) quad_opts 1 = Some (Ok (quad 0, quad_cells), 1%nat) /\
  smooths square (SScalar 4) quad_opts /\ tells_apart quad_backend (quad 21) /\ (forall r, In r quad_cells -> length r = 3%nat /\ NoDup (corners (quad 21) r)) /\
  lap_solves (b_uniqR quad_backend) (quad 21) quad_cells (b_solve quad_backend (quad 21) quad_cells).
Proof.
  split; [split; apply nodup_uniq_ok|]. split; [exact quad_run|].
  split; [split; [|split; reflexivity]; assert (full_bbox square (SScalar 4) = [0; 60; 0; 60]) as -> by (unfold full_bbox, square; cbn [size_bbox dom_bbox]; apply no_manip_bbox); reflexivity|]. split; [|split].
  - intros l x y V Ix Iy E. apply V in Ix, Iy. cbn [quad_backend b_key] in E.
    unfold quad in Ix, Iy. cbn [In] in Ix, Iy.
    repeat (destruct Ix as [<- |Ix]; [repeat (destruct Iy as [<- |Iy]; [first [reflexivity|exfalso; cbn [map] in E; rewrite ?up_IZR in E; discriminate]|]); destruct Iy|]). destruct Ix.
  - assert (N3 : forall a b c : pt, nth 0 a 0 <> nth 0 b 0 \/ nth 1 a 0 <> nth 1 b 0 -> nth 0 a 0 <> nth 0 c 0 \/ nth 1 a 0 <> nth 1 c 0 -> nth 0 b 0 <> nth 0 c 0 \/ nth 1 b 0 <> nth 1 c 0 -> NoDup [a; b; c]).
    { intros a b c H1 H2 H3. assert (a <> b /\ a <> c /\ b <> c) as (E1 & E2 & E3) by (repeat split; intros ->; [destruct H1|destruct H2|destruct H3]; congruence).
      constructor; [cbn [In]; intuition congruence|]. constructor; [cbn [In]; intuition congruence|]. constructor; [intros []|constructor]. }
    intros r I. cbn [quad_cells In] in I. destruct I as [<- |[<- |[]]]; (split; [reflexivity|]); unfold corners, quad; cbn [map nth]; apply N3; cbn [nth]; first [left; lra|right; lra].
  - split; [reflexivity|]. rewrite quad_boundary. intros v j Lv Lj. cbn [quad length] in Lv. unfold lap_matrix, lap_rhs. cbn [quad_backend b_solve quad length seq map].
    do 4 (destruct v as [|v]; [cbn [existsb Nat.eqb orb]; unfold rtotal; cbn [fold_right nth]; ring|]). lia.
Qed.
