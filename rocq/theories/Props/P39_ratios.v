(** C103: generate_mesh depends on the size function only through the ratios of its values; the resolution is set by h0 / the declared
    smallest size.  One process, exact arithmetic. *)
From Coq Require Import Reals List Arith Bool Lra Lia FunctionalExtensionality.
From Verif Require Import Model.Base Model.SDF Model.Simplex Model.Mesh Model.Laplace Model.Forces Model.InitGrid Model.Newton Model.Generator.
From Verif Require Import Proofs.ListAux Proofs.MeshAux Proofs.FixMeshProofs Proofs.ForceProofs Props.P21_start.
Import ListNotations.
Local Open Scope R_scope.

(** ---- specification ---- *)
(** the second size is c times the first, with the same declared box and smallest size *)
Inductive rescaled (c : R) : size_arg -> size_arg -> Prop :=
| resc_fun f g : (forall x, g x = c * f x) -> rescaled c (SFunction f) (SFunction g)
| resc_obj b h f g : (forall x, g x = c * f x) -> rescaled c (SObject b h f) (SObject b h g).
Definition with_h0 (o : gen_opts) (h : option R) : gen_opts :=
  mkOpts (o_max_iter o) (o_perform_checks o) (o_pfix o) (o_points o) (o_delta_t o) (o_geps_mult o) (o_subdomains o) (o_mesh_improvement o) (o_r0m_is_h0 o) h.

(** ---- forces ---- *)
Lemma powsum_scal dim c l : powsum dim (map (fun x => c * x) l) = c ^ dim * powsum dim l.
Proof. unfold powsum. rewrite map_map. etransitivity; [|exact (total_scal (c ^ dim) (fun x => x ^ dim) l)]. apply total_ext. intros x _. apply Rpow_mult_distr. Qed.
Lemma bar_len_pos p e : 0 < bar_len p e.
Proof.
  unfold bar_len. cbv zeta. assert (0 <= sub_len (nth (fst e) p []) (nth (snd e) p [])) by (unfold sub_len; apply sqrt_pos).
  destruct (Reqb _ 0) eqn:E; [unfold eps52; apply Rinv_0_lt_compat, pow_lt; lra|]. apply Reqb_false in E. lra.
Qed.
Lemma scale_scal dim c f g p es : (0 < dim)%nat -> 0 < c -> (forall x, 0 < f x) -> (forall x, g x = c * f x) -> es <> [] ->
  c * scale dim g p es = scale dim f p es.
Proof.
  intros D C F G N. unfold scale.
  replace (map (fun e => g (mid p e)) es) with (map (fun x => c * x) (map (fun e => f (mid p e)) es)) by (rewrite map_map; apply map_ext; intros e; rewrite G; reflexivity).
  rewrite powsum_scal. set (A := powsum dim (map (bar_len p) es)). set (B := powsum dim (map (fun e => f (mid p e)) es)).
  assert (0 < A) as HA. { unfold A, powsum. rewrite map_map. apply total_pos; [exact N|]. intros e _. apply pow_lt, bar_len_pos. }
  assert (0 < B) as HB. { unfold B, powsum. rewrite map_map. apply total_pos; [exact N|]. intros e _. apply pow_lt, F. }
  assert (0 < c ^ dim) as HC by (apply pow_lt, C). assert (INR dim <> 0) as HN by (apply not_0_INR; lia).
  assert (Rpower (c ^ dim) (1 / INR dim) = c) as E.
  { rewrite <- Rpower_pow, Rpower_mult by exact C. replace (INR dim * (1 / INR dim)) with 1 by (field; exact HN). apply Rpower_1, C. }
  assert (0 < A / (c ^ dim * B)) as HQ by (apply Rdiv_lt_0_compat; [exact HA | apply Rmult_lt_0_compat; assumption]).
  rewrite <- E at 1. rewrite Rpower_mult_distr by assumption. f_equal. field. lra.
Qed.
Lemma forces_scal dim c f g m p t : (0 < dim)%nat -> 0 < c -> (forall x, 0 < f x) -> (forall x, g x = c * f x) ->
  compute_forces dim g m p t = compute_forces dim f m p t.
Proof.
  intros D C F G. unfold compute_forces. cbv zeta. destruct (bars dim t) as [|e0 es0] eqn:EB; [reflexivity|]. set (es := e0 :: es0). assert (es <> []) as N by discriminate. clearbody es.
  assert (forall e j, force_vec dim g m p es e j = force_vec dim f m p es e j) as EV.
  { intros e j. unfold force_vec, bar_force, desired. rewrite <- (scale_scal dim c f g p es D C F G N), G.
    replace (c * f (mid p e) * m * scale dim g p es) with (f (mid p e) * m * (c * scale dim g p es)) by ring. reflexivity. }
  apply map_ext. intros v. apply map_ext. intros j. f_equal. apply map_ext. intros e. rewrite EV. reflexivity.
Qed.
(** ---- the loop ---- *)
Lemma loop_scal B P Q c : (0 < g_dim P)%nat -> 0 < c -> (forall x, 0 < g_fh P x) -> (forall x, g_fh Q x = c * g_fh P x) ->
  Q = mkProblem (g_dim P) (g_fd P) (g_fh Q) (g_h0 P) (g_deps P) (g_geps P) (g_delta_t P) (g_pfix P) (g_subs P) (g_max_iter P) (g_checks P) (g_improve P) ->
  forall fuel count p, mesh_loop B Q fuel count p = mesh_loop B P fuel count p.
Proof.
  intros D C F G E. set (gh := g_fh Q) in *. clearbody gh. subst Q. induction fuel as [|fuel IH]; intros count p; [reflexivity|]. cbn [mesh_loop].
  destruct (b_tri B count p) as [p1 t0]. destruct p1 as [|x p1]; [reflexivity|]. unfold finish, ifix_of, next_points, force_step.
  cbn [g_dim g_fd g_fh g_h0 g_deps g_geps g_delta_t g_pfix g_subs g_max_iter g_checks g_improve].
  rewrite !(forces_scal _ c (g_fh P) gh _ _ _ D C F G). rewrite IH. reflexivity.
Qed.
(** ---- the starting points ---- *)
Lemma min_scal c l : 0 < c -> l <> [] -> min_list (map (fun x => c * x) l) = c * min_list l.
Proof.
  intros C. induction l as [|x l IH]; intros N; [congruence|]. destruct l as [|y l]; [reflexivity|].
  change (min_list (map (fun z => c * z) (x :: y :: l))) with (Rmin (c * x) (min_list (map (fun z => c * z) (y :: l)))).
  rewrite IH by discriminate. change (min_list (x :: y :: l)) with (Rmin x (min_list (y :: l))).
  unfold Rmin. destruct (Rle_dec (c * x) _) as [H|H]; destruct (Rle_dec x _) as [K|K]; try reflexivity; exfalso.
  - apply K. apply Rmult_le_reg_l with c; assumption.
  - apply H. apply Rmult_le_compat_l; lra.
Qed.
Lemma start_scal B s s' c dim bbox fd h0 geps pfix o : 0 < c -> (forall x, 0 < size_fh s x) -> (forall x, size_fh s' x = c * size_fh s x) ->
  grid_points s' bbox h0 = grid_points s bbox h0 -> o_r0m_is_h0 o = false \/ o_points o <> None ->
  start_points B s' dim bbox fd h0 geps pfix o = start_points B s dim bbox fd h0 geps pfix o.
Proof.
  intros C F G EG R. unfold start_points. destruct (o_points o); [reflexivity|]. destruct R as [R|R]; [|congruence]. unfold initial_points. rewrite EG.
  destruct (filter _ (grid_points s bbox h0)) as [|x l] eqn:EF; [reflexivity|]. set (ps := x :: l) in *. assert (ps <> []) as N by discriminate. clearbody ps.
  f_equal. f_equal. f_equal. apply filter_ext_in. intros i I. apply in_seq in I. f_equal.
  assert (map (size_fh s') ps = map (fun z => c * z) (map (size_fh s) ps)) as -> by (rewrite map_map; apply map_ext; exact G).
  unfold r0m_of. rewrite R. rewrite min_scal; [|exact C|destruct ps; [congruence|discriminate]].
  set (m := min_list _). rewrite (nth_map' (fun z => c * z) (map (size_fh s) ps) i 0 0) by (rewrite map_length; lia).
  rewrite (nth_map' (size_fh s) ps i 0 []) by lia. specialize (F (nth i ps [])). set (h := size_fh s (nth i ps [])) in *.
  rewrite !Rpow_mult_distr. assert (0 < c ^ dim) by (apply pow_lt, C). assert (0 < h ^ dim) by (apply pow_lt, F). field. lra.
Qed.

Lemma resc_fh c s s' : rescaled c s s' -> (forall x, size_fh s' x = c * size_fh s x) /\ size_bbox s' = size_bbox s /\ size_hmin s' = size_hmin s /\
  (forall b h, grid_points s' b h = grid_points s b h) /\ (forall d dim, used_corners d s' dim = used_corners d s dim).
Proof. intros []; (split; [assumption|]); repeat split; reflexivity. Qed.

(** multiplying the size function by any constant changes nothing *)
Theorem C103_only_ratios_matter : forall B d s s' c o fuel, 0 < c -> rescaled c s s' -> (forall x, 0 < size_fh s x) ->
  o_r0m_is_h0 o = false \/ o_points o <> None ->
  generate_mesh B d s' o fuel = generate_mesh B d s o fuel.
Proof.
  intros B d s s' c o fuel C E F R. destruct (resc_fh _ _ _ E) as (G & EB & EH & EG & EU). unfold generate_mesh, prepare, meshed_fd, full_bbox, the_h0, fixed_points. rewrite EB, EH.
  destruct (match size_bbox s with None => _ | Some _ => _ end) as [fd|]; [|reflexivity]. destruct (match size_hmin s with Some h => Some h | None => o_h0 o end) as [h0|]; [|reflexivity].
  destruct (Rltb h0 0); [reflexivity|]. destruct (negb _) eqn:ED; [reflexivity|]. apply negb_false_iff, orb_true_iff in ED. rewrite !Nat.eqb_eq in ED.
  rewrite EU, (start_scal B s s' c _ _ _ _ _ _ _ C F G (EG _ _) R).
  destruct (start_points _ _ _ _ _ _ _ _ _) as [p|]; [|reflexivity]. cbn [rbind]. destruct (Rltb (o_max_iter o) 0); [reflexivity|]. destruct p as [|x p]; [reflexivity|].
  apply (loop_scal B _ _ c); cbn [g_dim g_fh]; [lia|exact C|exact F|exact G|reflexivity].
Qed.
Print Assumptions C103_only_ratios_matter.

(** a constant function, whatever the constant, gives the mesh of the number h0 (2D, or a domain without corners) *)
Theorem C103_constant_function : forall B d c h o fuel, 0 < c -> 0 < h -> o_r0m_is_h0 o = false \/ o_points o <> None ->
  length (dom_bbox d) = 4%nat \/ dom_corners d = None ->
  generate_mesh B d (SFunction (fun _ => c)) (with_h0 o (Some h)) fuel = generate_mesh B d (SScalar h) (with_h0 o (Some h)) fuel.
Proof.
  intros B d c h o fuel C H R K. unfold generate_mesh, prepare, meshed_fd, full_bbox, the_h0. cbn [size_bbox size_hmin with_h0 o_h0].
  destruct (Rltb h 0); [reflexivity|]. destruct (negb _) eqn:ED; [reflexivity|]. apply negb_false_iff, orb_true_iff in ED. rewrite !Nat.eqb_eq in ED.
  assert (forall dim, (dim = Nat.div2 (length (dom_bbox d)))%nat -> used_corners d (SFunction (fun _ => c)) dim = used_corners d (SScalar h) dim) as EU.
  { intros dim ->. unfold used_corners. destruct (dom_corners d) as [cs|]; [|reflexivity]. destruct K as [->|K]; [reflexivity|discriminate]. }
  unfold fixed_points. rewrite EU by reflexivity.
  assert (forall x : pt, 0 < size_fh (SScalar h) x) as F by (intros; exact H).
  assert (forall x : pt, size_fh (SFunction (fun _ => c)) x = c / h * size_fh (SScalar h) x) as G by (intros; cbn; field; lra).
  assert (0 < c / h) as CH by (apply Rdiv_lt_0_compat; lra).
  rewrite (start_scal B (SScalar h) (SFunction (fun _ => c)) (c / h)); [|exact CH|exact F|exact G| |exact R].
  2: { rewrite (grid_points_grid (SFunction _)), (grid_points_grid (SScalar h)) by exact ED. reflexivity. }
  destruct (start_points _ _ _ _ _ _ _ _ _) as [p|]; [|reflexivity]. cbn [rbind]. destruct (Rltb _ 0); [reflexivity|]. destruct p as [|x p]; [reflexivity|].
  apply (loop_scal B _ _ (c / h)); cbn [g_dim g_fh]; [lia|exact CH|exact F|exact G|reflexivity].
Qed.
Print Assumptions C103_constant_function.

(** sliver_removal does not look at the sizes at all, only at the declared smallest one *)
Theorem C103_sliver_removal_ignores_sizes : forall B rank points d b h f g o fuel,
  sliver_removal B rank points d (SObject b h f) o fuel = sliver_removal B rank points d (SObject b h g) o fuel /\
  sliver_removal B rank points d (SFunction f) o fuel = sliver_removal B rank points d (SFunction g) o fuel.
Proof. intros. split; reflexivity. Qed.
Print Assumptions C103_sliver_removal_ignores_sizes.

(** with r0m_is_h0 the constant matters: of the six grid points of the box all are used with size 1, none with size 2 *)
Theorem C103_r0m_is_h0_refuted :
  (exists P, prepare half_backend (DFunction (fun _ => -1) [0; 2; 0; 1]) (SFunction (fun _ => 1)) (start_opts true) = Ok (P, [[1/4; 1/4]; [0;0];[0;1];[1;1/2];[1;3/2];[2;0];[2;1]])) /\
  (exists P, prepare half_backend (DFunction (fun _ => -1) [0; 2; 0; 1]) (SFunction (fun _ => 2)) (start_opts true) = Ok (P, [[1/4; 1/4]])) /\
  rescaled 2 (SFunction (fun _ => 1)) (SFunction (fun _ => 2)).
Proof.
  assert (forall a, let r0 := map (fun _ : pt => a) [[0;0];[0;1];[1;1/2];[1;3/2];[2;0];[2;1]] in exists P,
    prepare half_backend (DFunction (fun _ => -1) [0; 2; 0; 1]) (SFunction (fun _ => a)) (start_opts true) = Ok (P, [1/4; 1/4] ::
      map (fun i => nth i [[0;0];[0;1];[1;1/2];[1;3/2];[2;0];[2;1]] []) (filter (fun i => Rltb (nth i (repeat (1/2) 6) 0) (r0m_of (start_opts true) 1 r0 ^ 2 / nth i r0 0 ^ 2)) (seq 0 6)))) as H.
  { intros a r0. unfold prepare, meshed_fd, full_bbox. cbn [size_bbox the_h0 size_hmin start_opts o_h0 dom_bbox]. 
    rewrite (proj2 (Rltb_false 1 0)) by lra. cbn [length Nat.div2 Nat.eqb orb negb start_points start_opts o_points o_geps_mult dom_fd]. unfold initial_points.
    rewrite grid_points_grid by (left; reflexivity).
    match goal with |- context [filter ?f ?l] => assert (filter f l = [[0;0];[0;1];[1;1/2];[1;3/2];[2;0];[2;1]]) as EQ by exact box_candidates; rewrite EQ; clear EQ end.
    cbn [rbind o_max_iter start_opts]. rewrite (proj2 (Rltb_false 1 0)) by lra.
    change (fixed_points (DFunction (fun _ => -1) [0; 2; 0; 1]) (SFunction (fun _ => a)) 2 (fun _ => -1) (deps_of 1) (start_opts true)) with [[1/4; 1/4]].
    cbn [app]. eexists. reflexivity. }
  split; [|split].
  - destruct (H 1) as (P & E). exists P. rewrite E. cbn [map repeat seq filter nth].
    assert (r0m_of (start_opts true) 1 [1; 1; 1; 1; 1; 1] = 1) as ->. { unfold r0m_of. cbn [start_opts o_r0m_is_h0 min_list]. rewrite (proj2 (Rltb_false _ _)); [reflexivity|]. unfold Rmin. repeat destruct Rle_dec; lra. }
    rewrite !(proj2 (Rltb_true (1/2) (1 ^ 2 / 1 ^ 2))) by lra. reflexivity.
  - destruct (H 2) as (P & E). exists P. rewrite E. cbn [map repeat seq filter nth].
    assert (r0m_of (start_opts true) 1 [2; 2; 2; 2; 2; 2] = 11 / 10) as ->. { unfold r0m_of. cbn [start_opts o_r0m_is_h0 min_list]. rewrite (proj2 (Rltb_true _ _)); [lra|]. unfold Rmin. repeat destruct Rle_dec; lra. }
    rewrite !(proj2 (Rltb_false (1/2) ((11/10) ^ 2 / 2 ^ 2))) by lra. reflexivity.
  - constructor. intros x. lra.
Qed.
Print Assumptions C103_r0m_is_h0_refuted.

(** a graded size and its double *)
Example C103_case : rescaled 2 (SFunction (fun x => 1 + Rabs (nth 0 x 0))) (SFunction (fun x => 2 + 2 * Rabs (nth 0 x 0))) /\
  (forall x, 0 < size_fh (SFunction (fun x => 1 + Rabs (nth 0 x 0))) x) /\ o_r0m_is_h0 (start_opts false) = false /\ length (dom_bbox (DFunction (fun _ => -1) [0; 2; 0; 1])) = 4%nat.
Proof. split; [constructor; intros x; ring|]. split; [|split; reflexivity]. intros x. cbn [size_fh]. pose proof (Rabs_pos (nth 0 x 0)). lra. Qed.
