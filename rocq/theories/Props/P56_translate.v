(** C121: generate_mesh and sliver_removal somewhere else in space. *)
From Coq Require Import Reals List Arith Bool ZArith Lia Lra.
From Verif Require Import Model.Base Model.SDF Model.Simplex Model.Mesh Model.Formulas Model.Laplace Model.Forces Model.Newton Model.InitGrid Model.Dihedral
  Model.Generator Spec.Translate Proofs.ListAux Proofs.SDFBox Proofs.EdgeProofs Proofs.ScaleProofs Proofs.TranslateProofs Props.P18_generate Props.P28_lint Props.P42_scale.
Import ListNotations.
Local Open Scope R_scope.

(** Everything moved by v: the mesh is the same mesh moved by v, with the same cells, after the same iterations; a run that fails
    or goes on does so in both places. *)
Theorem C121_generate_mesh : forall v B B' d d' s s' o o' fuel,
  moved_backend v B B' -> sound_backend (length v) B -> moved_domain v d d' -> moved_size v s s' -> moved_options v o o' ->
  inputs_in_space (length v) d s o ->
  generate_mesh B' d' s' o' fuel = tr_outcome v (generate_mesh B d s o fuel).
Proof. exact generate_tr. Qed.
Print Assumptions C121_generate_mesh.

Lemma cube_fd_tr v b : length v = 3%nat -> length b = 6%nat -> moved_fd v (cube_fd b) (cube_fd (trb v b)).
Proof.
  intros Lv Lb. destruct v as [|d0 [|d1 [|d2 [|? ?]]]]; try discriminate Lv. destruct b as [|a0 [|a1 [|a2 [|a3 [|a4 [|a5 [|? ?]]]]]]]; try discriminate Lb.
  cbn [trb cube_fd moved_fd]. apply prim_moved, block_tr.
Qed.
(** sliver_removal with the same options: always. *)
Theorem C121_sliver_removal : forall v B B' rank points d d' s s' o fuel, length v = 3%nat ->
  moved_backend v B B' -> sound_backend 3 B -> moved_domain v d d' -> moved_size v s s' -> in_space 3 points ->
  length (dom_bbox d) = 6%nat -> (forall b, size_bbox s = Some b -> length b = 6%nat) ->
  sliver_removal B' rank (trp v points) d' s' o fuel = match sliver_removal B rank points d s o fuel with inl r => inl (tr_outcome v r) | inr u => inr u end.
Proof.
  intros v B B' rank points d d' s s' o fuel V3 HB SB D S IP LD LS. unfold sliver_removal. destruct (0 <? rank)%nat; [reflexivity|]. f_equal.
  assert (existsb (fun x => (length x =? 2)%nat) (trp v points) = existsb (fun x : pt => (length x =? 2)%nat) points) as ->.
  { unfold trp. clear. induction points as [|x l IH]; cbn [map existsb]; [reflexivity|]. rewrite length_tr, IH. reflexivity. }
  destruct (existsb _ points); [reflexivity|]. destruct (dom_tr v d d' D) as (Eb & _ & F). destruct (size_tr v s s' S) as (Es & Ehm & _).
  assert (EF : full_bbox d' s' = trb v (full_bbox d s) /\ length (full_bbox d s) = (2 * length v)%nat).
  { apply (full_tr' v d d' s s' D S); rewrite V3; assumption. }
  destruct EF as (EF & LF). rewrite V3 in LF. rewrite EF, Eb, Es, Ehm.
  set (fo := match size_bbox s with None => Some (dom_fd d) | Some b1 => if box_eqb (dom_bbox d) b1 then Some (dom_fd d) else cube_fd (full_bbox d s) end).
  set (fo' := match option_map (trb v) (size_bbox s) with None => _ | Some b1 => _ end).
  assert (M : moved_fd v fo fo').
  { unfold fo, fo'. destruct (size_bbox s) as [b1|]; cbn [option_map]; [|exact F]. rewrite box_eqb_tr by (rewrite LD, (LS b1 eq_refl); reflexivity). destruct (box_eqb _ b1); [exact F|apply cube_fd_tr; assumption]. }
  clearbody fo fo'. unfold moved_fd in M. destruct fo as [f|], fo' as [g|]; try contradiction; [|reflexivity].
  destruct (match size_hmin s with Some h => Some h | None => so_h0 o end) as [h0|]; [|reflexivity].
  destruct (Rltb h0 0); [reflexivity|]. destruct (Rltb (so_max_iter o) 0); [reflexivity|].
  apply sliver_loop_tr; [exact V3|exact HB|exact SB|exact M|reflexivity|exact IP].
Qed.
Print Assumptions C121_sliver_removal.

(** Domains: moved corners and centres give the moved domain. *)
Lemma prim_dom_tr v dim b k f b' k' g keep : b' = trb v b -> k' = option_map (trp v) k -> moved v f g ->
  moved_domain v (DObject (make_prim dim no_manip b k f keep)) (DObject (make_prim dim no_manip b' k' g keep)).
Proof.
  intros E1 E2 F. destruct (prim_parts dim b k f keep) as (A1 & A2). destruct (prim_parts dim b' k' g keep) as (B1 & B2).
  constructor; [congruence| |apply prim_moved, F]. rewrite A2, B2, E2. destruct keep; reflexivity.
Qed.
Theorem C121_domains : forall d0 d1 d2 x1 x2 y1 y2 z1 z2 r,
  moved_domain [d0; d1] (DObject (Rectangle x1 x2 y1 y2 no_manip)) (DObject (Rectangle (x1 + d0) (x2 + d0) (y1 + d1) (y2 + d1) no_manip)) /\
  moved_domain [d0; d1; d2] (DObject (Cube x1 x2 y1 y2 z1 z2 no_manip)) (DObject (Cube (x1 + d0) (x2 + d0) (y1 + d1) (y2 + d1) (z1 + d2) (z2 + d2) no_manip)) /\
  moved_domain [d0; d1] (DObject (Disk x1 y1 r no_manip)) (DObject (Disk (x1 + d0) (y1 + d1) r no_manip)) /\
  moved_domain [d0; d1; d2] (DObject (Ball x1 y1 z1 r no_manip)) (DObject (Ball (x1 + d0) (y1 + d1) (z1 + d2) r no_manip)).
Proof.
  intros. repeat split; apply prim_dom_tr; try reflexivity.
  - apply rect_tr.
  - apply block_tr.
  - cbn [trb]. repeat (f_equal; try ring).
  - intros q L. destruct q as [|x [|y [|? ?]]]; try discriminate L. cbn [tr ddisk]. rewrite !shift_minus. reflexivity.
  - cbn [trb]. repeat (f_equal; try ring).
  - intros q L. destruct q as [|x [|y [|z [|? ?]]]]; try discriminate L. cbn [tr dball]. rewrite !shift_minus. reflexivity.
Qed.
Print Assumptions C121_domains.

(** The argument translate: a Disk, Ball, Torus, Cylinder or Prism made with translate = v, turned and stretched or not, is the
    one made without, moved by v. *)
Lemma translate_back_tr v : forall x, length x = length v -> translate_back v (tr v x) = x.
Proof.
  unfold translate_back. induction v as [|d v IH]; intros [|a x] L; try discriminate L; [reflexivity|]. cbn [tr]. rewrite map2_cons, IH by (cbn in L; lia). f_equal. ring.
Qed.
Lemma shift_box_tr v : forall b, length b = (2 * length v)%nat -> shift_box b v = trb v b.
Proof.
  induction v as [|d v IH]; intros b L; [destruct b; [reflexivity|discriminate L]|]. cbn [length] in L. destruct b as [|lo [|hi b]]; cbn [length] in L; try lia.
  cbn [shift_box trb]. rewrite IH by lia. reflexivity.
Qed.
Lemma image_len dim ps : length (image_bbox dim ps) = (2 * dim)%nat.
Proof.
  unfold image_bbox. transitivity (2 * length (seq 0 dim))%nat; [|rewrite seq_length; reflexivity]. generalize (seq 0 dim). induction l as [|i l IH]; [reflexivity|].
  cbn [flat_map length app]. rewrite IH. lia.
Qed.
Lemma merge3_len : forall a b c up, length a = length b -> length a = length c -> length (merge3 up a b c) = length a.
Proof. induction a as [|x a IH]; intros [|y b] [|z c] up L1 L2; try discriminate; [reflexivity|]. cbn [merge3 length] in *. rewrite IH by lia. reflexivity. Qed.
Lemma configured_len dim r s b k : (dim = 2 \/ dim = 3)%nat -> length b = (2 * dim)%nat ->
  length (fst (build_rotation dim (mkManip r s None) (build_stretch dim (mkManip r s None) (b, k)))) = (2 * dim)%nat.
Proof.
  intros D L. assert (LS : length (fst (build_stretch dim (mkManip r s None) (b, k))) = (2 * dim)%nat).
  { unfold build_stretch. cbn [m_stretch]. destruct s; [apply image_len|exact L]. }
  destruct (build_stretch dim (mkManip r s None) (b, k)) as (b1, k1). cbn [fst] in LS. unfold build_rotation. cbn [m_rot]. destruct r as ((a, b'), c). cbn [fst].
  destruct D as [-> | ->]; cbn [Nat.eqb].
  - destruct (Reqb a 0); [exact LS|]. apply image_len.
  - destruct (Reqb a 0 && Reqb b' 0 && Reqb c 0); [exact LS|]. cbn [fst].
    rewrite merge3_len; destruct (Reqb a 0), (Reqb b' 0), (Reqb c 0); rewrite ?image_len, ?LS; reflexivity.
Qed.
Lemma prim_translate dim r s v b k f : (dim = 2 \/ dim = 3)%nat -> length v = dim -> length b = (2 * dim)%nat ->
  moved_domain v (DObject (make_prim dim (mkManip r s None) b k f false)) (DObject (make_prim dim (mkManip r s (Some v)) b k f false)).
Proof.
  intros D Lv Lb. constructor.
  - cbn [make_prim d_bbox]. unfold configure, build_translation. cbn [m_trans fst].
    change (build_stretch dim (mkManip r s (Some v)) (b, k)) with (build_stretch dim (mkManip r s None) (b, k)).
    change (build_rotation dim (mkManip r s (Some v))) with (build_rotation dim (mkManip r s None)). apply shift_box_tr. rewrite configured_len by assumption. lia.
  - reflexivity.
  - intros x L. cbn [make_prim d_eval]. unfold manipulate. cbn [m_rot m_trans m_stretch]. rewrite translate_back_tr by exact L. reflexivity.
Qed.
Theorem C121_translate_option : forall d0 d1 d2 a b c s xc yc zc r r2 h w,
  moved_domain [d0; d1] (DObject (Disk xc yc r (manip2 s a None))) (DObject (Disk xc yc r (manip2 s a (Some [d0; d1])))) /\
  moved_domain [d0; d1; d2] (DObject (Ball xc yc zc r (manip3 s a b c None))) (DObject (Ball xc yc zc r (manip3 s a b c (Some [d0; d1; d2])))) /\
  moved_domain [d0; d1; d2] (DObject (Torus r r2 (manip3 s a b c None))) (DObject (Torus r r2 (manip3 s a b c (Some [d0; d1; d2])))) /\
  moved_domain [d0; d1; d2] (DObject (Prism w h (manip3 s a b c None))) (DObject (Prism w h (manip3 s a b c (Some [d0; d1; d2])))) /\
  moved_domain [d0; d1; d2] (DObject (Cylinder h r (manip3 s a b c None))) (DObject (Cylinder h r (manip3 s a b c (Some [d0; d1; d2])))).
Proof. intros. repeat split; apply prim_translate; auto. Qed.
Print Assumptions C121_translate_option.

(** A Rectangle or Cube made with translate keeps its old corners, which generate_mesh then holds fixed: it is not the moved
    domain.  The unit square translated by (10, 0) asks for a vertex at (0, 0), ten units outside. *)
Theorem C121_translated_corners_refuted :
  (forall x1 x2 y1 y2 d0 d1, d0 <> 0 \/ d1 <> 0 ->
     ~ moved_domain [d0; d1] (DObject (Rectangle x1 x2 y1 y2 no_manip)) (DObject (Rectangle x1 x2 y1 y2 (manip2 None 0 (Some [d0; d1]))))) /\
  (forall x1 x2 y1 y2 z1 z2 d0 d1 d2, d0 <> 0 \/ d1 <> 0 \/ d2 <> 0 ->
     ~ moved_domain [d0; d1; d2] (DObject (Cube x1 x2 y1 y2 z1 z2 no_manip)) (DObject (Cube x1 x2 y1 y2 z1 z2 (manip3 None 0 0 0 (Some [d0; d1; d2]))))) /\
  (let D := Rectangle 0 1 0 1 (manip2 None 0 (Some [10; 0])) in
   d_bbox D = [10; 11; 0; 1] /\ d_eval D [0; 0] = 10 /\
   forall s o h0, o_pfix o = [] -> 0 < h0 -> (forall b h f, s <> SObject b h f) -> In [0; 0] (fixed_points (DObject D) s 2 (d_eval D) (deps_of h0) o)).
Proof.
  assert (Z : Reqb 0 0 = true) by (apply Reqb_true; reflexivity).
  split; [|split].
  - intros x1 x2 y1 y2 d0 d1 N H. inversion H as [o o' _ HC _ E1 E2|]. subst. revert HC.
    unfold Rectangle, make_prim, configure, build_translation, build_rotation, build_stretch, manip2, no_manip. cbn [d_corners m_rot m_stretch m_trans Nat.eqb]. rewrite Z. cbn [snd option_map].
    unfold corners. cbn. intros HC. injection HC as E1 E2. intros. lra.
  - intros x1 x2 y1 y2 z1 z2 d0 d1 d2 N H. inversion H as [o o' _ HC _ E1 E2|]. subst. revert HC.
    unfold Cube, make_prim, configure, build_translation, build_rotation, build_stretch, manip3, no_manip. cbn [d_corners m_rot m_stretch m_trans Nat.eqb]. rewrite Z. cbn [andb snd option_map].
    unfold corners. cbn. intros HC. injection HC as E1 E2 E3. intros. lra.
  - cbv zeta. assert (EV : d_eval (Rectangle 0 1 0 1 (manip2 None 0 (Some [10; 0]))) [0; 0] = 10).
    { unfold Rectangle, make_prim, manipulate, manip2. cbn [d_eval m_rot m_stretch m_trans]. rewrite Z. cbv zeta. unfold translate_back. cbn [map2 combine map fst snd c_drectangle].
      assert (M1 : stdmin (- 0 + (0 - 0)) (1 - (0 - 0)) = 0) by (unfold stdmin; rewrite (proj2 (Rltb_false _ _)); lra). rewrite M1.
      assert (M2 : stdmin 0 (- 0 + (0 - 10)) = -10) by (unfold stdmin; rewrite (proj2 (Rltb_true _ _)); lra). rewrite M2.
      unfold stdmin. rewrite (proj2 (Rltb_false _ _)); lra. }
    split; [|split; [exact EV|]].
    + unfold Rectangle, make_prim, configure, build_translation, build_rotation, build_stretch, manip2. cbn [d_bbox m_rot m_stretch m_trans Nat.eqb fst]. rewrite Z. cbn [fst shift_box].
      repeat (f_equal; try ring).
    + intros s o h0 EP H NS. unfold fixed_points. rewrite EP. cbn [app]. unfold kept_corners. apply filter_In. split.
      * unfold used_corners. cbn [dom_corners]. destruct s as [b h f|f|h]; [exfalso; apply (NS b h f); reflexivity| |];
        unfold Rectangle, make_prim, configure, build_translation, build_rotation, build_stretch, manip2; cbn [d_corners m_rot m_stretch m_trans Nat.eqb]; rewrite Z; cbn; auto.
      * rewrite EV. unfold Rgtb. apply Rltb_true. unfold deps_of. nra.
Qed.
Print Assumptions C121_translated_corners_refuted.

(** One tetrahedron below a plane, here and elsewhere: the hypotheses hold and the run ends with a cell. *)
Definition cell_backend : backend :=
  mkBackend (fun _ p => (p, if (4 <=? length p)%nat then [[0;1;2;3]%nat] else [])) (nodup key_dec) (nodup row_dec) (fun p x => [Z.of_nat (find_pos (same_pt x) p)]) ve_pairs (fun p _ => p) (fun n => repeat 0 n).
Definition here : R := 2 ^ 27.
Definition away : list R := [5; 7; -3].
Definition away_plane (x : pt) : R := nth 0 x 0 - 5 - here.
Definition away_opts : gen_opts := mkOpts 1 false [] (Some (trp away (tet here 1))) (3 / 10) 0 None true false None.
Lemma tr_inj v : forall x y, tr v x = tr v y -> x = y.
Proof.
  induction v as [|d v IH]; intros [|a x] [|b y] E; try exact E; try discriminate E. cbn [tr] in E. injection E as E1 E2. f_equal; [lra|apply IH, E2].
Qed.
Lemma cell_moved : moved_backend away cell_backend cell_backend.
Proof.
  unfold moved_backend. repeat split; cbn [cell_backend b_tri b_key b_solve b_uniqK b_uniqR b_ve b_rand fst snd].
  - intros k p. unfold trp. rewrite map_length. reflexivity.
  - intros p x. f_equal. f_equal. unfold trp. apply find_pos_map. intros y. unfold same_pt. destruct (list_eq_dec Req_EM_T x y) as [->|N]; [destruct (list_eq_dec _ _ _); congruence|].
    destruct (list_eq_dec _ _ _) as [E|]; [apply tr_inj in E; congruence|reflexivity].
Qed.
Lemma cell_sound : sound_backend 3 cell_backend.
Proof.
  unfold sound_backend. split; [apply nodup_uniq_ok|]. split; [apply nodup_uniq_ok|]. split; [|intros p t H; split; [apply H|reflexivity]].
  intros k p D. cbn [cell_backend b_tri fst snd]. split; [exact D|]. intros r I. destruct (Nat.leb_spec 4 (length p)); [|destruct I].
  destruct I as [<- |[]]. split; [reflexivity|]. intros a A. cbn in A. lia.
Qed.
Lemma cell_run : generate_mesh cell_backend (DFunction (plane here) [0; here; 0; here; 0; here]) (SScalar here) (tet_opts here) 1 = tet_run here.
Proof.
  assert (C : 0 < here) by (unfold here; apply pow_lt; lra).
  unfold tet_run, generate_mesh, prepare. cbn [meshed_fd size_bbox dom_fd full_bbox dom_bbox length Nat.div2 Nat.eqb orb negb the_h0 size_hmin start_points tet_opts o_points o_max_iter rbind].
  rewrite (proj2 (Rltb_false here 0)) by lra. cbn [start_points o_points tet_opts rbind o_max_iter]. rewrite (proj2 (Rltb_false 1 0)) by lra.
  set (P := mkProblem _ _ _ _ _ _ _ _ _ _ _ _). unfold tet at 1 2, offsets at 1 2. cbn [map]. cbv iota. cbn [mesh_loop cell_backend tet_backend b_tri length Nat.leb].
  reflexivity.
Qed.
Example C121_case : moved_backend away cell_backend cell_backend /\ sound_backend 3 cell_backend /\
  moved_domain away (DFunction (plane here) [0; here; 0; here; 0; here]) (DFunction away_plane [0 + 5; here + 5; 0 + 7; here + 7; 0 + -3; here + -3]) /\
  moved_size away (SScalar here) (SScalar here) /\ moved_options away (tet_opts here) away_opts /\
  inputs_in_space 3 (DFunction (plane here) [0; here; 0; here; 0; here]) (SScalar here) (tet_opts here) /\
  exists p t, length t = 1%nat /\
    generate_mesh cell_backend (DFunction (plane here) [0; here; 0; here; 0; here]) (SScalar here) (tet_opts here) 1 = Some (Ok (p, t), 1%nat) /\
    generate_mesh cell_backend (DFunction away_plane [0 + 5; here + 5; 0 + 7; here + 7; 0 + -3; here + -3]) (SScalar here) away_opts 1 = Some (Ok (trp away p, t), 1%nat).
Proof.
  assert (MD : moved_domain away (DFunction (plane here) [0; here; 0; here; 0; here]) (DFunction away_plane [0 + 5; here + 5; 0 + 7; here + 7; 0 + -3; here + -3])).
  { apply (moved_function away (plane here) away_plane [0; here; 0; here; 0; here]). intros x L. destruct x as [|a [|b [|c [|? ?]]]]; try discriminate L.
    unfold plane, away_plane, away. cbn [tr nth]. ring. }
  assert (MS : moved_size away (SScalar here) (SScalar here)) by constructor.
  assert (MO : moved_options away (tet_opts here) away_opts) by (repeat split).
  assert (II : inputs_in_space 3 (DFunction (plane here) [0; here; 0; here; 0; here]) (SScalar here) (tet_opts here)).
  { split; [reflexivity|]. split; [intros b H; discriminate H|]. split; [intros c H; discriminate H|]. split; [intros x []|].
    intros p H. injection H as <-. intros x I. unfold tet in I. apply in_map_iff in I. destruct I as (q & <- & _). reflexivity. }
  split; [exact cell_moved|]. split; [exact cell_sound|]. split; [exact MD|]. split; [exact MS|]. split; [exact MO|]. split; [exact II|].
  pose proof (C121_generate_mesh away cell_backend cell_backend _ _ _ _ _ _ 1%nat cell_moved cell_sound MD MS MO II) as G. rewrite G, cell_run.
  assert (C : 0 < here) by (unfold here; apply pow_lt; lra). rewrite (tet_value here C). cbv zeta.
  assert (D2 : floor1 (deps_of here) = 2). { unfold floor1, deps_of, here. rewrite (proj2 (Rltb_true _ _)); lra. }
  rewrite D2. assert (S2 : shrink 2 (seq 0 5) 1 = 1 / 2 * (1 / 2) * (3 / 4) * (11 / 12) * (47 / 48)). { cbn [seq shrink INR]. field. }
  rewrite S2. rewrite (proj2 (Rltb_true _ _)) by (unfold here; lra). eexists. eexists. split; [|split; reflexivity]. reflexivity.
Qed.
