(** C106: the unit of length of generate_mesh and sliver_removal. *)
From Coq Require Import Reals List Arith Bool ZArith Lia Lra.
From Verif Require Import Model.Base Model.SDF Model.Simplex Model.Mesh Model.Formulas Model.Laplace Model.Forces Model.Newton Model.InitGrid Model.Dihedral
  Model.Generator Spec.Scale Proofs.ListAux Proofs.SDFBox Proofs.EdgeProofs Proofs.ScaleProofs Props.P18_generate Props.P28_lint.
Import ListNotations.
Local Open Scope R_scope.

(** Lengths in another unit: the mesh is the same mesh in the other unit, with the same cells, after the same iterations; a run
    that fails or goes on does so in both. *)
Theorem C106_generate_mesh : forall c B B' d d' s s' o o' fuel, 0 < c ->
  same_backend c B B' -> same_domain c d d' -> same_size c s s' -> same_options c o o' -> calm_run c B d s o fuel ->
  generate_mesh B' d' s' o' fuel = sc_outcome c (generate_mesh B d s o fuel).
Proof.
  intros c B B' d d' s s' o o' fuel C HB D S OO Q. unfold generate_mesh, calm_run in *. pose proof (prepare_sc c C B B' d d' s s' o o' HB D S OO) as P.
  destruct (prepare B d s o) as [[P0 p]|e].
  - destruct P as (P' & -> & SP). apply loop_sc; assumption.
  - rewrite P. reflexivity.
Qed.
Print Assumptions C106_generate_mesh.

Lemma bars_incl dim t t' : incl t t' -> incl (bars dim t) (bars dim t').
Proof.
  intros I (a, b). unfold bars. rewrite !(proj2 (proj2 (unique_edges_spec _))). intros (e & H & N). exists e. split; [|exact N].
  unfold gen_edges in *. apply in_flat_map in H. destruct H as (ix & H1 & H2). apply in_flat_map. exists ix. split; [exact H1|].
  apply in_map_iff in H2. destruct H2 as (r & <- & H2). apply in_map, I, H2.
Qed.
Lemma calm_all c B P : (forall k p, no_zero_bars (g_dim P) (fst (b_tri B k p)) (snd (b_tri B k p))) ->
  (forall fd, In fd (g_fd P :: match g_subs P with Some l => l | None => [] end) -> forall x, floor_free c fd (g_deps P) x) ->
  forall fuel count p, calm c B P fuel count p.
Proof.
  intros N A. induction fuel as [|k IH]; intros count p; cbn [calm]; [exact I|]. specialize (N count p). destruct (b_tri B count p) as (p1, t0). cbn [fst snd] in N.
  destruct p1 as [|q p1]; [exact I|]. destruct (Reqb _ _).
  - unfold finish_calm. destruct (termination _ _ _ _ _ _) as [[p2 t2]|e]; [|exact I]. apply improve_all. apply A. left. reflexivity.
  - split.
    + intros e H. apply N. revert H. apply bars_incl. intros r H. unfold remove_outside in H. apply filter_In in H. apply H.
    + destruct (Rltb _ _); [|exact I]. split; [|apply IH]. clear - A. generalize (force_step (g_dim P) (g_fh P) (L0mult (g_dim P)) (g_delta_t P) (ifix_of P (q :: p1)) (q :: p1) (remove_outside (g_dim P) (g_fd P) (g_geps P) (q :: p1) t0)). generalize 0%nat.
      induction (g_fd P :: match g_subs P with Some l => l | None => [] end) as [|f l IHl]; intros n p2; cbn [levels_calm]; [exact I|]. split.
      * intros x _ _. apply A. left. reflexivity.
      * apply IHl. intros fd H. apply A. right. exact H.
Qed.
(** Enough for a calm run: the triangulation joins no two points at one place, and every level's squared slope is 0 or at least
    sqrt(eps) times the smallest size in both units. *)
Theorem C106_steep_levels : forall c B B' d d' s s' o o' fuel, 0 < c ->
  same_backend c B B' -> same_domain c d d' -> same_size c s s' -> same_options c o o' ->
  (forall dim k p, no_zero_bars dim (fst (b_tri B k p)) (snd (b_tri B k p))) ->
  (forall h0 fd, the_h0 s o = Some h0 -> meshed_fd d s = Some fd \/ (exists l, o_subdomains o = Some l /\ In fd l) ->
     forall x, slope2 fd (deps_of h0) x = 0 \/ deps_of h0 <= slope2 fd (deps_of h0) x /\ deps_of (c * h0) <= slope2 fd (deps_of h0) x) ->
  generate_mesh B' d' s' o' fuel = sc_outcome c (generate_mesh B d s o fuel).
Proof.
  intros c B B' d d' s s' o o' fuel C HB D S OO N A. apply (C106_generate_mesh c B B' d d' s s' o o' fuel C HB D S OO). unfold calm_run.
  destruct (prepare B d s o) as [[P p]|e] eqn:E; [|exact I].
  assert (G : exists h0, the_h0 s o = Some h0 /\ meshed_fd d s = Some (g_fd P) /\ g_subs P = o_subdomains o /\ g_deps P = deps_of h0).
  { unfold prepare in E. destruct (meshed_fd d s) as [fd|]; [|discriminate]. destruct (the_h0 s o) as [h0|]; [|discriminate]. destruct (Rltb h0 0); [discriminate|].
    destruct (negb _); [discriminate|]. destruct (start_points _ _ _ _ _ _ _ _ _) as [q|]; [|discriminate]. cbn [rbind] in E. destruct (Rltb _ _); [discriminate|].
    destruct q; [discriminate|]. injection E as <- _. exists h0. repeat split. }
  destruct G as (h0 & G1 & G2 & G3 & G4). apply calm_all; [intros k q; apply N|].
  intros fd H x. unfold floor_free. right. rewrite G4. replace (c * deps_of h0) with (deps_of (c * h0)) by (unfold deps_of; ring). apply A; [exact G1|].
  destruct H as [<- |H]; [left; exact G2|]. right. rewrite <- G3. destruct (g_subs P) as [l|]; [|destruct H]. exists l. split; [reflexivity|exact H].
Qed.
Print Assumptions C106_steep_levels.

(** sliver_removal: always, unless the boundary is to be preserved. *)
Definition same_sliver_options (c : R) (o o' : sliver_opts) : Prop :=
  so_h0 o' = option_map (Rmult c) (so_h0 o) /\ so_max_iter o' = so_max_iter o /\ so_checks o' = so_checks o /\ so_min_deg o' = so_min_deg o /\
  so_max_deg o' = so_max_deg o /\ so_geps_mult o' = so_geps_mult o /\ so_gamma o' = so_gamma o /\ so_preserve o' = so_preserve o.
Theorem C106_sliver_removal : forall c B B' rank points d d' s s' o o' fuel, 0 < c ->
  same_backend c B B' -> same_domain c d d' -> same_size c s s' -> same_sliver_options c o o' -> so_preserve o = false ->
  sliver_removal B' rank (scp c points) d' s' o' fuel = match sliver_removal B rank points d s o fuel with inl r => inl (sc_outcome c r) | inr u => inr u end.
Proof.
  intros c B B' rank points d d' s s' o o' fuel C HB D S (Eh & Em & Ec & Emi & Ema & Eg & Ega & Ep) Q. unfold sliver_removal. destruct (0 <? rank)%nat; [reflexivity|]. f_equal.
  assert (existsb (fun x => (length x =? 2)%nat) (scp c points) = existsb (fun x : pt => (length x =? 2)%nat) points) as ->.
  { unfold scp. induction points as [|x l IH]; cbn [map existsb]; [reflexivity|]. rewrite length_sc, IH. reflexivity. }
  destruct (existsb _ points); [reflexivity|]. destruct (dom_sc c d d' D) as (Eb & _ & F). destruct (size_sc c s s' S) as (Es & Ehm & _).
  rewrite (full_sc c C d d' s s' D S), Eb, Es, Ehm.
  set (fo := match size_bbox s with None => Some (dom_fd d) | Some b1 => if box_eqb (dom_bbox d) b1 then Some (dom_fd d) else cube_fd (full_bbox d s) end).
  set (fo' := match option_map (sc c) (size_bbox s) with None => _ | Some b1 => _ end).
  assert (M : same_fd c fo fo').
  { unfold fo, fo'. destruct (size_bbox s) as [b1|]; cbn [option_map]; [|exact F]. rewrite (box_eqb_sc c C). destruct (box_eqb _ b1); [exact F|apply cube_fd_sc, C]. }
  clearbody fo fo'. unfold same_fd in M. destruct fo as [f|], fo' as [g|]; try contradiction; [|reflexivity].
  assert (match option_map (Rmult c) (size_hmin s) with Some h => Some h | None => so_h0 o' end = option_map (Rmult c) (match size_hmin s with Some h => Some h | None => so_h0 o end)) as ->.
  { destruct (size_hmin s); [reflexivity|exact Eh]. }
  destruct (match size_hmin s with Some h => Some h | None => so_h0 o end) as [h0|]; [|reflexivity]. cbn [option_map]. rewrite P40_units.Rltb_scal0, Em by exact C.
  destruct (Rltb h0 0); [reflexivity|]. destruct (Rltb (so_max_iter o) 0); [reflexivity|].
  apply sliver_loop_sc; [exact C|exact HB| |left; exact Q].
  unfold same_sliver. cbn. rewrite Emi, Ema, Eg, Ega, Ep, Ec. repeat split; try exact M; unfold deps_of; ring.
Qed.
Print Assumptions C106_sliver_removal.

(** The domains: a box or ball with scaled corners, centre and radius is the same domain in the other unit. *)
Lemma prim_parts dim b k f keep : d_bbox (make_prim dim no_manip b k f keep) = b /\ d_corners (make_prim dim no_manip b k f keep) = if keep then k else None.
Proof.
  split; [apply no_manip_bbox|]. cbn [make_prim d_corners]. destruct keep; [|reflexivity]. unfold configure, build_translation, build_rotation, build_stretch. cbn [m_trans m_rot m_stretch no_manip].
  rewrite (proj2 (Reqb_true 0 0)) by reflexivity. cbn [andb]. destruct (Nat.eqb dim 2); reflexivity.
Qed.
Lemma prim_dom c dim b k f b' k' g keep : b' = sc c b -> k' = option_map (scp c) k -> same_length c f g ->
  same_domain c (DObject (make_prim dim no_manip b k f keep)) (DObject (make_prim dim no_manip b' k' g keep)).
Proof.
  intros E1 E2 F. destruct (prim_parts dim b k f keep) as (A1 & A2). destruct (prim_parts dim b' k' g keep) as (B1 & B2).
  constructor; [congruence| |apply prim_same, F]. rewrite A2, B2, E2. destruct keep; reflexivity.
Qed.
Theorem C106_domains : forall c x1 x2 y1 y2 z1 z2 r, 0 < c ->
  same_domain c (DObject (Rectangle x1 x2 y1 y2 no_manip)) (DObject (Rectangle (c * x1) (c * x2) (c * y1) (c * y2) no_manip)) /\
  same_domain c (DObject (Cube x1 x2 y1 y2 z1 z2 no_manip)) (DObject (Cube (c * x1) (c * x2) (c * y1) (c * y2) (c * z1) (c * z2) no_manip)) /\
  same_domain c (DObject (Disk x1 y1 r no_manip)) (DObject (Disk (c * x1) (c * y1) (c * r) no_manip)) /\
  same_domain c (DObject (Ball x1 y1 z1 r no_manip)) (DObject (Ball (c * x1) (c * y1) (c * z1) (c * r) no_manip)).
Proof.
  intros c x1 x2 y1 y2 z1 z2 r C. repeat split; apply prim_dom; try reflexivity.
  - apply rect_sc, C.
  - apply block_sc, C.
  - unfold sc. cbn [map]. rewrite !Rmult_minus_distr_l, !Rmult_plus_distr_l. reflexivity.
  - intros q. destruct q as [|x [|y [|? ?]]]; try (cbn; ring). cbn [sc map ddisk]. rewrite Rmult_minus_distr_l. f_equal. rewrite <- sqrt_sq by lra. f_equal. ring.
  - unfold sc. cbn [map]. rewrite !Rmult_minus_distr_l, !Rmult_plus_distr_l. reflexivity.
  - intros q. destruct q as [|x [|y [|z [|? ?]]]]; try (cbn; ring). cbn [sc map dball]. rewrite Rmult_minus_distr_l. f_equal. rewrite <- sqrt_sq by lra. f_equal. ring.
Qed.
Print Assumptions C106_domains.

(** One tetrahedron below the plane x = c with the sizes and the box in the unit c: in metres (c = 1) the mesh comes out empty, all
    vertices on the plane; in the unit c = 2^27 the same call stops short of the plane and keeps the cell. *)
Definition plane (c : R) (x : pt) : R := nth 0 x 0 - c.
Definition tet_backend : backend :=
  mkBackend (fun _ p => (p, [[0;1;2;3]%nat])) (nodup key_dec) (nodup row_dec) (fun p x => [Z.of_nat (find_pos (same_pt x) p)]) ve_pairs (fun p _ => p) (fun n => repeat 0 n).
Definition offsets : list (R * (R * R)) := [(-1, (0, 0)); (- (1 / 2), (0, 0)); (-1, (1, 0)); (-1, (0, 1))].
Definition tet (c k : R) : list pt := map (fun q => [c * (1 + k * fst q); c * fst (snd q); c * snd (snd q)]) offsets.
Definition tet_opts (c : R) : gen_opts := mkOpts 1 false [] (Some (tet c 1)) (3 / 10) 0 None true false None.
Definition tet_run (c : R) := generate_mesh tet_backend (DFunction (plane c) [0; c; 0; c; 0; c]) (SScalar c) (tet_opts c) 1.
Lemma same_pt_sc c x y : 0 < c -> same_pt (sc c x) (sc c y) = same_pt x y.
Proof. intros C. exact (box_eqb_sc c C x y). Qed.
Lemma tet_same c : 0 < c -> same_backend c tet_backend tet_backend.
Proof.
  intros C. repeat split; cbn; intros; try reflexivity. f_equal. f_equal. unfold scp. apply find_pos_map. intros y. apply same_pt_sc, C.
Qed.
Lemma tet_scaled c k : tet c k = scp c (tet 1 k).
Proof. unfold tet, scp. rewrite map_map. apply map_ext. intros q. unfold sc. cbn [map]. repeat (f_equal; try ring). Qed.
Lemma tet_inputs c : 0 < c -> same_domain c (DFunction (plane 1) [0; 1; 0; 1; 0; 1]) (DFunction (plane c) [0; c; 0; c; 0; c]) /\
  same_size c (SScalar 1) (SScalar c) /\ same_options c (tet_opts 1) (tet_opts c).
Proof.
  intros C. split; [|split].
  - replace [0; c; 0; c; 0; c] with (sc c [0; 1; 0; 1; 0; 1]) by (unfold sc; cbn [map]; rewrite Rmult_0_r, Rmult_1_r; reflexivity). constructor.
    intros x. unfold plane. rewrite nth_sc. ring.
  - replace (SScalar c) with (SScalar (c * 1)) by (f_equal; ring). constructor.
  - repeat split. cbn [tet_opts o_points option_map]. rewrite (tet_scaled c 1). reflexivity.
Qed.

Definition floor1 (deps : R) : R := if Rltb 1 deps then deps else 1.
Lemma newton_plane c deps al x y z : 0 < deps -> newton (plane c) deps al [x; y; z] = [x - al * ((x - c) / floor1 deps); y; z].
Proof.
  intros D. unfold newton. assert (dgrads (plane c) deps [x; y; z] = [1; 0; 0]) as ->.
  { unfold dgrads, deps_vec, plane. cbn. f_equal; [field; lra|]. f_equal; [field; lra|]. f_equal. field; lra. }
  unfold dgrad2, rtotal. cbn [map fold_right]. replace (1 * 1 + (0 * 0 + (0 * 0 + 0))) with 1 by ring. fold (floor1 deps). unfold plane. cbn.
  f_equal; [unfold Rdiv; ring|]. f_equal; [unfold Rdiv; ring|]. f_equal. unfold Rdiv. ring.
Qed.
Fixpoint shrink (m : R) (its : list nat) (al : R) : R := match its with [] => 1 | it :: l => (1 - al / m) * shrink m l (al / INR (S it)) end.
Lemma improve_plane c deps its : 0 < deps -> forall al k,
  improve_loop (plane c) deps [0;1;2;3]%nat its al (tet c k) = tet c (k * shrink (floor1 deps) its al).
Proof.
  intros D. induction its as [|it its IH]; intros al k; cbn [improve_loop shrink].
  - rewrite Rmult_1_r. reflexivity.
  - replace (map _ (seq 0 (length (tet c k)))) with (tet c (k * (1 - al / floor1 deps))).
    + rewrite IH, Rmult_assoc. reflexivity.
    + unfold tet, offsets. cbn [map fst snd length seq existsb Nat.eqb orb nth]. rewrite !newton_plane by exact D. unfold Rdiv.
      repeat (f_equal; try ring).
Qed.
Lemma four_fix k q0 q1 q2 q3 : k q0 <> k q1 -> k q0 <> k q2 -> k q0 <> k q3 -> k q1 <> k q2 -> k q1 <> k q3 -> k q2 <> k q3 ->
  fix_mesh (nodup key_dec) (nodup row_dec) k [q0; q1; q2; q3] [[0;1;2;3]%nat] true true = Ok ([q0; q1; q2; q3], [orient [q0; q1; q2; q3] [0;1;2;3]%nat], [0;1;2;3]%nat).
Proof.
  intros A B C D E F. unfold fix_mesh. assert (G : nodup key_dec (map k [q0; q1; q2; q3]) = [k q0; k q1; k q2; k q3]).
  { cbn [map]. apply nodup_fixed_point. repeat constructor; cbn; intuition congruence. }
  rewrite G. assert (T : forall x, key_eqb x x = true) by (intro x; unfold key_eqb; destruct (key_dec x x); congruence).
  assert (N : forall x y, x <> y -> key_eqb x y = false) by (intros x y H; unfold key_eqb; destruct (key_dec x y); congruence).
  cbn [map find_pos]. rewrite !T, !(N (k q0)), !(N (k q1)), !(N (k q2)), !(N (k q3)) by congruence. reflexivity.
Qed.
Lemma tet_fix c : 0 < c -> run_fix tet_backend (tet c 1) [[0;1;2;3]%nat] = Ok (tet c 1, [orient (tet c 1) [0;1;2;3]%nat]).
Proof.
  intros C. unfold run_fix. cbn [b_uniqK b_uniqR b_key tet_backend].
  assert (K : forall x y, In x (tet c 1) -> In y (tet c 1) -> x <> y -> [Z.of_nat (find_pos (same_pt x) (tet c 1))] <> [Z.of_nat (find_pos (same_pt y) (tet c 1))]).
  { intros x y Ix Iy N E. apply N. rewrite <- (find_pos_same x _ Ix), <- (find_pos_same y _ Iy). f_equal. injection E as E. apply Nat2Z.inj, E. }
  set (k := fun x : pt => [Z.of_nat (find_pos (same_pt x) (tet c 1))]).
  pose proof (four_fix k [c * (1 + 1 * -1); c * 0; c * 0] [c * (1 + 1 * - (1 / 2)); c * 0; c * 0] [c * (1 + 1 * -1); c * 1; c * 0] [c * (1 + 1 * -1); c * 0; c * 1]) as G.
  change [[c * (1 + 1 * -1); c * 0; c * 0]; [c * (1 + 1 * - (1 / 2)); c * 0; c * 0]; [c * (1 + 1 * -1); c * 1; c * 0]; [c * (1 + 1 * -1); c * 0; c * 1]] with (tet c 1) in G.
  rewrite G; [reflexivity|..]; apply K; try (cbn; tauto); intros E; injection E; intros; nra.
Qed.
Lemma tet_bound c : get_boundary_vertices (nodup row_dec) 3 [orient (tet c 1) [0;1;2;3]%nat] = [0;1;2;3]%nat.
Proof. unfold orient. destruct (Rltb _ 0); reflexivity. Qed.
Lemma tet_centre c k : centroid 3 (pts_of (tet c k) (orient (tet c 1) [0;1;2;3]%nat)) = [c * (1 - k * (7 / 8)); c / 4; c / 4] /\
  centroid 3 (pts_of (tet c k) [0;1;2;3]%nat) = [c * (1 - k * (7 / 8)); c / 4; c / 4].
Proof.
  split; [unfold orient; destruct (Rltb _ 0)|]; unfold centroid, pts_of; cbn; repeat (f_equal; try field).
Qed.
Lemma tet_value c : 0 < c -> let k := shrink (floor1 (deps_of c)) (seq 0 5) 1 in
  tet_run c = Some (Ok (tet c k, if Rltb (- (c * k * (7 / 8))) (- (c * (1 / 1000))) then [orient (tet c 1) [0;1;2;3]%nat] else []), 1%nat).
Proof.
  intros C k. assert (D : 0 < deps_of c) by (unfold deps_of; apply Rmult_lt_0_compat; [apply Rinv_0_lt_compat, pow_lt; lra|exact C]).
  unfold tet_run, generate_mesh, prepare. cbn [meshed_fd size_bbox dom_fd full_bbox dom_bbox length Nat.div2 Nat.eqb orb negb the_h0 size_hmin start_points tet_opts o_points o_max_iter rbind].
  rewrite (proj2 (Rltb_false c 0)) by lra. cbn [start_points o_points tet_opts rbind o_max_iter]. rewrite (proj2 (Rltb_false 1 0)) by lra.
  set (P := mkProblem _ _ _ _ _ _ _ _ _ _ _ _).
  transitivity (mesh_loop tet_backend P 1 0 (tet c 1)); [unfold tet at 1, offsets at 1; reflexivity|].
  assert (g_dim P = 3%nat /\ g_fd P = plane c /\ g_h0 P = c /\ g_geps P = 0 * c /\ g_max_iter P = 1 /\ g_checks P = false /\ g_deps P = deps_of c) as (Dm & F & H0 & G & M & CH & De) by (repeat split).
  clearbody P. cbn [mesh_loop]. cbn [tet_backend b_tri]. fold tet_backend. unfold tet at 1, offsets at 1. cbn [map]. cbv iota.
  rewrite M. rewrite (proj2 (Reqb_true (INR 0) (1 - 1))) by (cbn [INR]; lra). unfold finish, termination.
  destruct (tet_centre c 1) as (_ & C1).
  assert (remove_outside (g_dim P) (g_fd P) (g_geps P) (tet c 1) [[0;1;2;3]%nat] = [[0;1;2;3]%nat]) as ->.
  { rewrite Dm, F, G. unfold remove_outside. cbn [filter]. rewrite C1. unfold plane. cbn [nth]. rewrite (proj2 (Rltb_true _ _)) by nra. reflexivity. }
  rewrite Dm, CH. cbn [Nat.eqb rbind fst snd]. rewrite (tet_fix c C). cbn [rbind fst snd]. unfold improve_level_set. cbn [b_uniqR tet_backend]. rewrite tet_bound.
  cbn [rbind]. rewrite F, De, (improve_plane c _ _ D), H0, Rmult_1_l. fold k. unfold remove_outside. cbn [filter]. rewrite (proj1 (tet_centre c k)). unfold plane. cbn [nth].
  replace (c * (1 - k * (7 / 8)) - c) with (- (c * k * (7 / 8))) by ring. reflexivity.
Qed.
(** what the floor does *)
Theorem C106_floor_refuted :
  exists c p t p' t', 0 < c /\ same_backend c tet_backend tet_backend /\ same_domain c (DFunction (plane 1) [0; 1; 0; 1; 0; 1]) (DFunction (plane c) [0; c; 0; c; 0; c]) /\
  same_size c (SScalar 1) (SScalar c) /\ same_options c (tet_opts 1) (tet_opts c) /\
  generate_mesh tet_backend (DFunction (plane 1) [0; 1; 0; 1; 0; 1]) (SScalar 1) (tet_opts 1) 1 = Some (Ok (p, t), 1%nat) /\
  generate_mesh tet_backend (DFunction (plane c) [0; c; 0; c; 0; c]) (SScalar c) (tet_opts c) 1 = Some (Ok (p', t'), 1%nat) /\
  t = [] /\ length t' = 1%nat /\ (forall x, In x p -> plane 1 x = 0) /\ (forall x, In x p' -> plane c x < 0).
Proof.
  assert (C : 0 < 2 ^ 27) by (apply pow_lt; lra). exists (2 ^ 27). pose proof (tet_value 1 Rlt_0_1) as V1. pose proof (tet_value (2 ^ 27) C) as V2. cbv zeta in V1, V2.
  assert (D1 : floor1 (deps_of 1) = 1). { unfold floor1, deps_of. rewrite (proj2 (Rltb_false _ _)); [reflexivity|]. lra. }
  assert (D2 : floor1 (deps_of (2 ^ 27)) = 2). { unfold floor1, deps_of. rewrite (proj2 (Rltb_true _ _)); lra. }
  rewrite D1 in V1. rewrite D2 in V2.
  assert (S1 : shrink 1 (seq 0 5) 1 = 0). { cbn [seq shrink]. replace (1 - 1 / 1) with 0 by field. ring. }
  assert (S2 : shrink 2 (seq 0 5) 1 = 1 / 2 * (1 / 2) * (3 / 4) * (11 / 12) * (47 / 48)). { cbn [seq shrink INR]. field. }
  rewrite S1 in V1. rewrite S2 in V2. rewrite (proj2 (Rltb_false _ _)) in V1 by lra. rewrite (proj2 (Rltb_true _ _)) in V2 by lra.
  destruct (tet_inputs (2 ^ 27) C) as (I1 & I2 & I3).
  eexists _, _, _, _. split; [exact C|]. split; [apply tet_same, C|]. split; [exact I1|]. split; [exact I2|]. split; [exact I3|]. split; [exact V1|]. split; [exact V2|].
  split; [reflexivity|]. split; [reflexivity|]. split.
  - unfold tet, offsets. intros x H. cbn [map In fst snd] in H. unfold plane. decompose [or] H; subst; try contradiction; cbn [nth]; lra.
  - unfold tet, offsets. intros x H. cbn [map In fst snd] in H. unfold plane. set (c := 2 ^ 27) in *. clearbody c. decompose [or] H; subst; try contradiction; cbn [nth]; nra.
Qed.
Print Assumptions C106_floor_refuted.

(** metres to kilometres, and to half metres: the run on the same tetrahedron is calm *)
Lemma plane_slope h x : 0 < h -> (0 < length x)%nat -> slope2 (plane 1) h x = 1.
Proof.
  intros H L. unfold slope2, dgrads. destruct x as [|a x]; [cbn in L; lia|]. cbn [length seq map]. unfold rtotal. cbn [fold_right].
  assert (forall i y, (0 < i)%nat -> plane 1 (map2 Rplus (a :: y) (deps_vec (S (length y)) h i)) = plane 1 (a :: y)) as Z.
  { intros i y I. unfold plane, deps_vec, map2. cbn [seq map combine nth fst snd]. destruct i; [lia|]. cbn [Nat.eqb]. ring. }
  assert (fold_right Rplus 0 (map (fun v => v * v) (map (fun i => (plane 1 (map2 Rplus (a :: x) (deps_vec (S (length x)) h i)) - plane 1 (a :: x)) / h) (seq 1 (length x)))) = 0) as ->.
  { rewrite map_map. assert (G : forall l, (forall i, In i l -> (0 < i)%nat) -> fold_right Rplus 0 (map (fun i => (plane 1 (map2 Rplus (a :: x) (deps_vec (S (length x)) h i)) - plane 1 (a :: x)) / h * ((plane 1 (map2 Rplus (a :: x) (deps_vec (S (length x)) h i)) - plane 1 (a :: x)) / h)) l) = 0).
    { induction l as [|i l IH]; intros A; cbn [map fold_right]; [reflexivity|]. rewrite Z by (apply A; left; reflexivity). rewrite IH by (intros; apply A; right; assumption). unfold Rdiv. ring. }
    apply G. intros i I. apply in_seq in I. lia. }
  assert (plane 1 (map2 Rplus (a :: x) (deps_vec (S (length x)) h 0)) - plane 1 (a :: x) = h) as ->.
  { unfold plane, deps_vec, map2. cbn [seq map combine nth fst snd Nat.eqb]. ring. }
  field. lra.
Qed.
Example C106_case : calm_run (1 / 1000) tet_backend (DFunction (plane 1) [0; 1; 0; 1; 0; 1]) (SScalar 1) (tet_opts 1) 1 /\
  calm_run 2 tet_backend (DFunction (plane 1) [0; 1; 0; 1; 0; 1]) (SScalar 1) (tet_opts 1) 1 /\
  tet_run (1 / 1000) = sc_outcome (1 / 1000) (tet_run 1) /\ tet_run 2 = sc_outcome 2 (tet_run 1) /\ tet_run 1 <> None.
Proof.
  assert (Q : forall c, c * deps_of 1 <= 1 -> calm_run c tet_backend (DFunction (plane 1) [0; 1; 0; 1; 0; 1]) (SScalar 1) (tet_opts 1) 1).
  { intros c H. assert (D : 0 < deps_of 1 <= 1) by (unfold deps_of; lra). unfold calm_run, prepare.
    cbn [meshed_fd size_bbox dom_fd full_bbox dom_bbox length Nat.div2 Nat.eqb orb negb the_h0 size_hmin start_points tet_opts o_points o_max_iter rbind].
    rewrite (proj2 (Rltb_false 1 0)) by lra. unfold tet at 1, offsets at 1. cbn [map]. cbv iota. cbn [calm tet_backend b_tri g_max_iter g_fd g_dim g_geps g_deps].
    rewrite (proj2 (Reqb_true (INR 0) (1 - 1))) by (cbn [INR]; lra). unfold finish_calm. destruct (termination _ _ _ _ _ _) as [[p2 t2]|e]; [|exact I].
    apply improve_all. intros x. cbn [g_fd g_deps]. right. destruct x as [|a x]; [left; reflexivity|]. right. rewrite plane_slope by (cbn; lra || lia). split; [apply D|exact H]. }
  assert (D : deps_of 1 = / 2 ^ 26) by (unfold deps_of; lra).
  assert (R : forall c, 0 < c -> c * deps_of 1 <= 1 -> tet_run c = sc_outcome c (tet_run 1)).
  { intros c C H. destruct (tet_inputs c C) as (I1 & I2 & I3). apply C106_generate_mesh; try assumption; [apply tet_same, C|apply Q, H]. }
  split; [apply Q; rewrite D; lra|]. split; [apply Q; rewrite D; lra|]. split; [apply R; rewrite ?D; lra|]. split; [apply R; rewrite ?D; lra|].
  rewrite (tet_value 1 Rlt_0_1). discriminate.
Qed.
