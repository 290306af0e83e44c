(** 3D multi-axis counterexample, corner lists after translation, Repeat, stretch-array aliasing. *)
From Coq Require Import List ZArith Reals Bool Lra Lia.
From Verif Require Import Model.Base Model.SDF Spec.Geom Spec.Domains Spec.Transform Proofs.SDFPrim Proofs.SDFSets Proofs.SDFXform Proofs.SDFBox.
Import ListNotations.
Local Open Scope R_scope.

(** ---- cube rotated by pi/4 about x and y ---- *)
Lemma max_list_le l t : l <> [] -> Forall (fun x => x <= t) l -> max_list l <= t.
Proof.
  induction l as [|a l IH]; [congruence|]. intros _ H. inversion H; subst. destruct l as [|b l]; [exact H2|].
  change (max_list (a :: b :: l)) with (Rmax a (max_list (b :: l))). apply Rmax_lub; [exact H2|]. apply IH; [discriminate|exact H3].
Qed.
Lemma s2 : 0 < sqrt 2 /\ sqrt 2 * sqrt 2 = 2.
Proof. split; [apply sqrt_lt_R0; lra|apply sqrt_sqrt; lra]. Qed.

Definition tilted : domain := Cube (-1) 1 (-1) 1 (-1) 1 (manip3 None (PI / 4) (PI / 4) 0 None).
Definition tilted_corner : list R := forward3 None (PI / 4) (PI / 4) 0 None [1; 1; -1].

Lemma PI4_nz : PI / 4 <> 0. Proof. pose proof PI_RGT_0. lra. Qed.

Lemma tilted_inside : d_eval tilted tilted_corner <= 0.
Proof.
  unfold tilted, tilted_corner, Cube. cbn [make_prim d_eval]. rewrite manipulate3_bf; try exact I; [|reflexivity].
  rewrite block_bd. apply bd_box; [repeat constructor|]. constructor; [lra|]. constructor; [lra|]. constructor; [lra|]. constructor.
Qed.
Lemma tilted_outside : ~ in_box (d_bbox tilted) tilted_corner.
Proof.
  destruct s2 as [P S]. unfold tilted_corner, forward3, opt_pt. rewrite rotz_0. cbn [roty_pt rotx_pt].
  rewrite cos_PI4, sin_PI4. intros H.
  assert (exists u v w s t r, d_bbox tilted = [u; v; w; s; t; r] /\ s <= sqrt 2) as (u & v & w & s & t & r & E & Hs).
  { unfold tilted, Cube. cbn [make_prim d_bbox]. unfold configure, build_translation, build_rotation, build_stretch, manip3.
    cbn [m_trans m_rot m_stretch]. rewrite Reqb_refl, (Reqb_neq (PI / 4) 0) by exact PI4_nz. cbn [andb Nat.eqb fst].
    cbn [merge3 image_bbox flat_map seq app negb]. do 6 eexists. split; [reflexivity|].
    unfold max3. apply Rmax_lub; [apply Rmax_lub|].
    - apply max_list_le; [discriminate|]. unfold mat_vec, dot, map2, rot_x. cbn [corners flat_map map app combine fold_right fst snd nth].
      rewrite cos_PI4, sin_PI4.
      assert (1 / sqrt 2 = sqrt 2 / 2) as -> by (apply (Rmult_eq_reg_r (2 * sqrt 2)); [field_simplify; lra|lra]).
      repeat (apply Forall_cons; [lra|]); apply Forall_nil.
    - apply max_list_le; [discriminate|]. unfold mat_vec, dot, map2, rot_y. cbn [corners flat_map map app combine fold_right fst snd nth].
      assert (1 <= sqrt 2) by (rewrite <- sqrt_1; apply sqrt_le_1_alt; lra). repeat (apply Forall_cons; [lra|]); apply Forall_nil.
    - rewrite <- sqrt_1. apply sqrt_le_1_alt; lra. }
  rewrite E in H. apply in_box3 in H. destruct H as (u' & v' & w' & s' & t' & r' & E' & _ & H & _). inversion E'; subst. destruct H as [_ H].
  assert (1 / sqrt 2 = sqrt 2 / 2) as E2 by (apply (Rmult_eq_reg_r (2 * sqrt 2)); [field_simplify; lra|lra]).
  rewrite E2 in H. clear E E' E2. 
  assert (sqrt 2 / 2 * (-(sqrt 2 / 2) * 1 + sqrt 2 / 2 * -1) = -1) as E3.
  { replace (sqrt 2 / 2 * (-(sqrt 2 / 2) * 1 + sqrt 2 / 2 * -1)) with (- (sqrt 2 * sqrt 2) / 2) by field. lra. }
  rewrite E3 in H. assert (sqrt 2 < 2); [|lra]. apply Rsqr_incrst_0; unfold Rsqr; lra.
Qed.

(** ---- corners and translation ---- *)
Lemma configure_corners dim m b : m_trans m = None ->
  snd (configure dim m (b, Some (corners b))) = Some (corners (fst (configure dim m (b, Some (corners b))))).
Proof.
  intros T. unfold configure. unfold build_translation at 1 2. rewrite T.
  set (s := build_stretch dim m (b, Some (corners b))).
  assert (snd s = Some (corners (fst s))) as Hs by (unfold s, build_stretch; destruct (m_stretch m); reflexivity).
  clearbody s. unfold build_rotation. destruct (m_rot m) as [[a b'] c].
  destruct (Nat.eqb dim 2); [destruct (Reqb a 0); [exact Hs|reflexivity]|].
  destruct (Reqb a 0 && Reqb b' 0 && Reqb c 0); [exact Hs|reflexivity].
Qed.
Definition untranslated (m : manip) : manip := mkManip (m_rot m) (m_stretch m) None.
Lemma configure_untranslated dim m s : snd (configure dim m s) = snd (configure dim (untranslated m) s) /\
  fst (configure dim m s) = match m_trans m with Some t => shift_box (fst (configure dim (untranslated m) s)) t | None => fst (configure dim (untranslated m) s) end.
Proof.
  unfold configure. assert (forall s, build_rotation dim (untranslated m) s = build_rotation dim m s) as E1 by reflexivity.
  assert (forall s, build_stretch dim (untranslated m) s = build_stretch dim m s) as E2 by reflexivity.
  rewrite E1, E2. unfold build_translation. cbn [m_trans untranslated]. destruct (m_trans m); split; reflexivity.
Qed.

Lemma rect_corners_fresh x1 x2 y1 y2 m : m_trans m = None ->
  d_corners (Rectangle x1 x2 y1 y2 m) = Some (corners (d_bbox (Rectangle x1 x2 y1 y2 m))).
Proof. intros T. apply (configure_corners 2 m [x1; x2; y1; y2] T). Qed.
Lemma cube_corners_fresh x1 x2 y1 y2 z1 z2 m : m_trans m = None ->
  d_corners (Cube x1 x2 y1 y2 z1 z2 m) = Some (corners (d_bbox (Cube x1 x2 y1 y2 z1 z2 m))).
Proof. intros T. apply (configure_corners 3 m [x1; x2; y1; y2; z1; z2] T). Qed.
Lemma rect_corners_stale x1 x2 y1 y2 m :
  d_corners (Rectangle x1 x2 y1 y2 m) = Some (corners (d_bbox (Rectangle x1 x2 y1 y2 (untranslated m)))).
Proof.
  rewrite <- rect_corners_fresh by reflexivity.
  apply (proj1 (configure_untranslated 2 m ([x1; x2; y1; y2], Some (corners [x1; x2; y1; y2])))).
Qed.
Lemma cube_corners_stale x1 x2 y1 y2 z1 z2 m :
  d_corners (Cube x1 x2 y1 y2 z1 z2 m) = Some (corners (d_bbox (Cube x1 x2 y1 y2 z1 z2 (untranslated m)))).
Proof.
  rewrite <- cube_corners_fresh by reflexivity.
  apply (proj1 (configure_untranslated 3 m ([x1; x2; y1; y2; z1; z2], Some (corners [x1; x2; y1; y2; z1; z2])))).
Qed.

(** a rectangle moved by more than its width: every corner lies outside it, and all are kept *)
Lemma moved_rect_corners x1 x2 y1 y2 tx ty deps : x1 <= x2 -> y1 <= y2 -> x2 - x1 < Rabs tx -> 0 <= deps ->
  let d := Rectangle x1 x2 y1 y2 (manip2 None 0 (Some [tx; ty])) in
  d_corners d = Some (corners [x1; x2; y1; y2]) /\
  (forall p, In p (corners [x1; x2; y1; y2]) -> d_eval d p > 0) /\
  kept_corners (d_eval d) deps (corners [x1; x2; y1; y2]) = corners [x1; x2; y1; y2].
Proof.
  intros Hx Hy Ht Hd d. split; [|].
  { unfold d. rewrite rect_corners_stale. f_equal. f_equal. change (untranslated (manip2 None 0 (Some [tx; ty]))) with (manip2 None 0 None).
    unfold Rectangle. change (manip2 None 0 None) with no_manip. apply no_manip_bbox. }
  assert (forall p, In p (corners [x1; x2; y1; y2]) -> d_eval d p > 0) as HO.
  { intros p Hp. apply (corners_spec [x1; x2; y1; y2] 2 p eq_refl) in Hp. apply Rnot_le_gt. intros Hle.
    assert (exists x y, p = [x; y] /\ x1 <= x <= x2) as (x & y & -> & Hpx).
    { inversion Hp as [|? ? ? ? H1|? ? ? ? H1]; subst; inversion H1 as [|? ? ? ? H2|? ? ? ? H2]; subst; inversion H2; subst; do 2 eexists; (split; [reflexivity|lra]). }
    assert (manipulate 2 (manip2 None 0 (Some [tx; ty])) [x; y] = [x - tx; y - ty]) as E.
    { unfold manipulate, manip2. cbn [m_rot m_trans m_stretch]. rewrite Reqb_refl. reflexivity. }
    unfold d, Rectangle in Hle. cbn [make_prim d_eval] in Hle. rewrite E, rect_bd in Hle. apply bd_box in Hle; [|repeat constructor].
    inversion Hle as [|? ? ? ? ? H1 _]; subst. unfold Rabs in Ht. destruct (Rcase_abs tx); lra. }
  split; [exact HO|]. unfold kept_corners. revert HO. generalize (corners [x1; x2; y1; y2]). induction l as [|c l IH]; intros HO; [reflexivity|].
  cbn [filter]. assert (Rgtb (d_eval d c) (-1000 * deps) = true) as ->.
  { unfold Rgtb, Rltb. pose proof (HO c (or_introl eq_refl)). destruct (Rlt_dec (-1000 * deps) (d_eval d c)); [reflexivity|lra]. }
  f_equal. apply IH. intros p Hp. apply HO. right; exact Hp.
Qed.

(** ---- Repeat ---- *)
Lemma fold_coord_eq x p : p <> 0 -> fold_coord x p = x - p * IZR (Int_part ((x + 5 / 10 * p) / p)).
Proof. intros Hp. unfold fold_coord, np_mod. ring. Qed.
Lemma int_part_unique r z : IZR z <= r < IZR z + 1 -> Int_part r = z.
Proof.
  intros H. destruct (base_Int_part r) as [A B].
  assert (IZR (Int_part r) < IZR z + 1) by lra. assert (IZR z < IZR (Int_part r) + 1) by lra.
  rewrite <- plus_IZR in H0, H1. apply lt_IZR in H0, H1. lia.
Qed.
Lemma fold_coord_range x p : 0 < p -> - (p / 2) <= fold_coord x p < p / 2.
Proof.
  intros Hp. rewrite fold_coord_eq by lra. set (r := (x + 5 / 10 * p) / p). destruct (base_Int_part r) as [A B].
  assert (r * p = x + 5 / 10 * p) as E by (unfold r; field; lra). set (z := IZR (Int_part r)) in *. clearbody z r.
  assert (z * p <= r * p) by (apply Rmult_le_compat_r; lra).
  assert (r * p < (z + 1) * p) by (apply Rmult_lt_compat_r; lra). lra.
Qed.
Lemma fold_coord_cong x p : 0 < p -> exists n : Z, fold_coord x p = x - IZR n * p.
Proof. intros Hp. rewrite fold_coord_eq by lra. eexists. rewrite Rmult_comm at 1. reflexivity. Qed.
Lemma fold_coord_periodic x p n : 0 < p -> fold_coord (x + IZR n * p) p = fold_coord x p.
Proof.
  intros Hp. rewrite !fold_coord_eq by lra. 
  assert (Int_part ((x + IZR n * p + 5 / 10 * p) / p) = (Int_part ((x + 5 / 10 * p) / p) + n)%Z) as ->.
  { apply int_part_unique. rewrite plus_IZR. destruct (base_Int_part ((x + 5 / 10 * p) / p)) as [A B].
    replace ((x + IZR n * p + 5 / 10 * p) / p) with ((x + 5 / 10 * p) / p + IZR n) by (field; lra). lra. }
  rewrite plus_IZR. ring.
Qed.

(** ---- aliasing of the stretch array ---- *)
Lemma dot_scale w s : s <> 0 -> dot (map (fun t => t / s) w) (map (fun t => t / s) w) = dot w w / (s * s).
Proof.
  intros Ns. induction w as [|a w IH]; [unfold dot, map2; cbn; field; exact Ns|]. cbn [map]. rewrite !dot_cons, IH. field. exact Ns.
Qed.
Lemma norm_normalise w : nonzero w -> norm2 (normalise w) = 1.
Proof.
  intros H. pose proof (norm2_pos w H) as P. pose proof (norm2_sq w H) as S. unfold norm2 at 1, normalise.
  rewrite dot_scale by lra. rewrite S. unfold Rdiv; rewrite Rinv_r; [apply sqrt_1|]. pose proof (dot_self_pos w H). lra.
Qed.
Lemma normalise_nonzero w : nonzero w -> nonzero (normalise w).
Proof.
  intros H. pose proof (norm2_pos w H) as P. unfold normalise. set (n := norm2 w) in *. clearbody n. unfold nonzero in *.
  induction H as [a w Ha|a w _ IH]; cbn [map]; [apply Exists_cons_hd|apply Exists_cons_tl; exact IH].
  unfold Rdiv. apply Rmult_integral_contrapositive_currified; [exact Ha|]. apply Rinv_neq_0_compat. lra.
Qed.
Lemma normalise_id w : norm2 w = 1 -> normalise w = w.
Proof. intros E. unfold normalise. rewrite E. rewrite <- (map_id w) at 2. apply map_ext. intros t. field. Qed.
Lemma normalise_idem w : nonzero w -> normalise (normalise w) = normalise w.
Proof. intros H. apply normalise_id, norm_normalise, H. Qed.
(** array content after n constructions *)
Fixpoint array_after (n : nat) (w : list R) : list R :=
  match n with O => w | S n' => stretch_array_after (array_after n' w) end.
Lemma array_after_S n w : nonzero w -> array_after (S n) w = normalise w.
Proof.
  intros H. induction n as [|n IH]; [reflexivity|]. change (array_after (S (S n)) w) with (normalise (array_after (S n) w)).
  rewrite IH. apply normalise_idem, H.
Qed.
Lemma scale_back_unit u x : norm2 u = 1 -> length u = length x -> scale_back (normalise u) 1 x = x.
Proof.
  intros E L. rewrite normalise_id by exact E. unfold scale_back. set (s := dot u x). clearbody s. unfold map2.
  revert x L. induction u as [|a u IH]; intros [|b x] L; try discriminate; [reflexivity|]. clear E.
  cbn [combine map fst snd]. f_equal; [field|].
  assert (forall u x : list R, length u = length x -> map (fun p : R * R => s * fst p / 1 + (snd p - s * fst p)) (combine u x) = x) as K.
  { clear. induction u as [|a u IH]; intros [|b x] L; try discriminate; [reflexivity|]. cbn [combine map fst snd]. f_equal; [field|]. apply IH. cbn in L; lia. }
  apply K. cbn in L. lia.
Qed.
Lemma manipulate_unit_stretch2 u a t p : norm2 u = 1 -> length u = 2%nat -> trans_ok 2 t -> length p = 2%nat ->
  manipulate 2 (manip2 (Some u) a t) p = manipulate 2 (manip2 None a t) p.
Proof.
  intros E L Ht Lp. pose proof (proj2 (manipulate2_fb None a t p I Ht Lp)) as LQ.
  unfold manipulate, manip2 in *. cbn [m_rot m_trans m_stretch Nat.eqb] in *. rewrite E. apply scale_back_unit; [exact E|].
  rewrite L. symmetry. exact LQ.
Qed.
Lemma manipulate_unit_stretch3 u a b c t p : norm2 u = 1 -> length u = 3%nat -> trans_ok 3 t -> length p = 3%nat ->
  manipulate 3 (manip3 (Some u) a b c t) p = manipulate 3 (manip3 None a b c t) p.
Proof.
  intros E L Ht Lp. pose proof (proj2 (manipulate3_fb None a b c t p I Ht Lp)) as LQ.
  unfold manipulate, manip3 in *. cbn [m_rot m_trans m_stretch Nat.eqb] in *. rewrite E. apply scale_back_unit; [exact E|].
  rewrite L. symmetry. exact LQ.
Qed.
(** the first and the second disk built from one array differ at the point w itself *)
Lemma first_disk_value w r : stretch_ok 2 (Some w) -> d_eval (Disk 0 0 r (manip2 (Some w) 0 None)) w = 1 - r.
Proof.
  intros Hs. destruct (Hs) as [L N]. unfold Disk. cbn [make_prim d_eval].
  pose proof (norm2_pos w N) as P. pose proof (norm2_sq w N) as S.
  assert (manipulate 2 (manip2 (Some w) 0 None) w = normalise w) as ->.
  { unfold manipulate, manip2. cbn [m_rot m_trans m_stretch]. rewrite Reqb_refl. destruct (len2 w L) as (a & b & ->).
    set (n := norm2 [a; b]) in *. unfold normalise, scale_back. fold n. 
    assert (dot (map (fun t : R => t / n) [a; b]) [a; b] = n) as ->.
    { unfold dot, map2 in *. cbn in *. replace (a / n * a + (b / n * b + 0)) with ((a * a + (b * b + 0)) / n) by (field; lra). rewrite <- S. field. lra. }
    unfold map2. cbn. clearbody n. peel; field; lra. }
  destruct (len2 w L) as (a & b & ->). pose proof (norm_normalise _ N) as E. unfold normalise in *. cbn [map ddisk] in *.
  unfold norm2 at 1 in E. unfold dot, map2 in E. cbn [combine map fst snd fold_right] in E. set (n := norm2 [a; b]) in *. clearbody n.
  replace ((a / n - 0) ^ 2 + (b / n - 0) ^ 2) with (a / n * (a / n) + (b / n * (b / n) + 0)) by ring. rewrite E. reflexivity.
Qed.
Lemma plain_disk_value w r : length w = 2%nat -> d_eval (Disk 0 0 r no_manip) w = norm2 w - r.
Proof.
  intros L. destruct (len2 w L) as (a & b & ->). rewrite disk_eval. f_equal. unfold norm2, dot, map2. cbn [combine map fst snd fold_right]. f_equal. ring.
Qed.

(** the box is unchanged too *)
Lemma stretch_point_unit u x : norm2 u = 1 -> length u = length x -> stretch_point (normalise u) 1 x = x.
Proof.
  intros E L. rewrite normalise_id by exact E. unfold stretch_point, map2. set (s := dot u x). clearbody s.
  revert x L. clear E. induction u as [|a u IH]; intros [|b x] L; try discriminate; [reflexivity|].
  cbn [combine map fst snd]. f_equal; [ring|]. apply IH. cbn in L. lia.
Qed.
Lemma min_list_ge l t : l <> [] -> Forall (fun x => t <= x) l -> t <= min_list l.
Proof.
  induction l as [|a l IH]; [congruence|]. intros _ H. inversion H; subst. destruct l as [|b l]; [exact H2|].
  change (min_list (a :: b :: l)) with (Rmin a (min_list (b :: l))). apply Rmin_glb; [exact H2|]. apply IH; [discriminate|exact H3].
Qed.
Lemma min_list_eq l t : In t l -> Forall (fun x => t <= x) l -> min_list l = t.
Proof.
  intros I F. apply Rle_antisym; [apply min_list_le, I|]. apply min_list_ge; [|exact F]. intros ->. destruct I.
Qed.
Lemma max_list_eq l t : In t l -> Forall (fun x => x <= t) l -> max_list l = t.
Proof.
  intros I F. apply Rle_antisym; [|apply max_list_ge, I]. apply max_list_le; [|exact F]. intros ->. destruct I.
Qed.
Ltac inl := cbn; repeat (first [left; reflexivity | right]).
Ltac fal := repeat (apply Forall_cons; [lra|]); apply Forall_nil.
Lemma image_corners2 x1 x2 y1 y2 : x1 <= x2 -> y1 <= y2 -> image_bbox 2 (corners [x1; x2; y1; y2]) = [x1; x2; y1; y2].
Proof.
  intros Hx Hy. cbn [image_bbox seq flat_map app corners map nth].
  peel; first [apply min_list_eq|apply max_list_eq]; [inl|fal|inl|fal|inl|fal|inl|fal].
Qed.
Lemma image_corners3 x1 x2 y1 y2 z1 z2 : x1 <= x2 -> y1 <= y2 -> z1 <= z2 ->
  image_bbox 3 (corners [x1; x2; y1; y2; z1; z2]) = [x1; x2; y1; y2; z1; z2].
Proof.
  intros Hx Hy Hz. cbn [image_bbox seq flat_map app corners map nth].
  peel; first [apply min_list_eq|apply max_list_eq]; [inl|fal|inl|fal|inl|fal|inl|fal|inl|fal|inl|fal].
Qed.
Lemma corners_len b : forall n k, length b = (2 * n)%nat -> In k (corners b) -> length k = n.
Proof.
  induction b as [|a|lo hi b IH] using list_ind2; intros n k L I.
  - cbn in *. destruct I as [<- | []]. cbn. lia.
  - cbn in L. lia.
  - destruct n as [|n]; [cbn in L; lia|]. rewrite corners_cons, in_app_iff, !in_map_iff in I.
    destruct I as [[q [<- Iq]]|[q [<- Iq]]]; cbn; rewrite (IH n q) by (try assumption; cbn in L; lia); reflexivity.
Qed.
Lemma unit_stretch_box2 u x1 x2 y1 y2 c m : x1 <= x2 -> y1 <= y2 -> norm2 u = 1 -> length u = 2%nat -> m_stretch m = Some u ->
  fst (build_stretch 2 m ([x1; x2; y1; y2], c)) = [x1; x2; y1; y2].
Proof.
  intros Hx Hy E L M. unfold build_stretch. rewrite M. cbn [fst]. rewrite E.
  rewrite (map_ext_in _ (fun x => x)), map_id; [apply image_corners2; assumption|].
  intros k Ik. apply stretch_point_unit; [exact E|]. rewrite L. symmetry. apply (corners_len [x1; x2; y1; y2] 2); [reflexivity|exact Ik].
Qed.
Lemma unit_stretch_box3 u x1 x2 y1 y2 z1 z2 c m : x1 <= x2 -> y1 <= y2 -> z1 <= z2 -> norm2 u = 1 -> length u = 3%nat -> m_stretch m = Some u ->
  fst (build_stretch 3 m ([x1; x2; y1; y2; z1; z2], c)) = [x1; x2; y1; y2; z1; z2].
Proof.
  intros Hx Hy Hz E L M. unfold build_stretch. rewrite M. cbn [fst]. rewrite E.
  rewrite (map_ext_in _ (fun x => x)), map_id; [apply image_corners3; assumption|].
  intros k Ik. apply stretch_point_unit; [exact E|]. rewrite L. symmetry. apply (corners_len [x1; x2; y1; y2; z1; z2] 3); [reflexivity|exact Ik].
Qed.
Lemma build_rotation_fst dim m b c c' : fst (build_rotation dim m (b, c)) = fst (build_rotation dim m (b, c')).
Proof.
  unfold build_rotation. destruct (m_rot m) as [[a b'] e]. cbn [fst]. destruct (Nat.eqb dim 2); [destruct (Reqb a 0); reflexivity|].
  destruct (Reqb a 0 && Reqb b' 0 && Reqb e 0); reflexivity.
Qed.
Lemma build_translation_fst m s s' : fst s = fst s' -> fst (build_translation m s) = fst (build_translation m s').
Proof. unfold build_translation. intros E. destruct (m_trans m); cbn [fst]; rewrite E; reflexivity. Qed.
Lemma unit_stretch_bbox2 u a t x1 x2 y1 y2 c0 f keep : x1 <= x2 -> y1 <= y2 -> norm2 u = 1 -> length u = 2%nat ->
  d_bbox (make_prim 2 (manip2 (Some u) a t) [x1; x2; y1; y2] c0 f keep) = d_bbox (make_prim 2 (manip2 None a t) [x1; x2; y1; y2] c0 f keep).
Proof.
  intros Hx Hy E L. cbn [make_prim d_bbox]. unfold configure.
  pose proof (unit_stretch_box2 u x1 x2 y1 y2 c0 (manip2 (Some u) a t) Hx Hy E L eq_refl) as B.
  destruct (build_stretch 2 (manip2 (Some u) a t) ([x1; x2; y1; y2], c0)) as [b c] eqn:ES. cbn [fst] in B. subst b.
  apply (build_translation_fst (manip2 None a t)). apply (build_rotation_fst 2 (manip2 None a t)).
Qed.
Lemma unit_stretch_bbox3 u a b c t x1 x2 y1 y2 z1 z2 c0 f keep : x1 <= x2 -> y1 <= y2 -> z1 <= z2 -> norm2 u = 1 -> length u = 3%nat ->
  d_bbox (make_prim 3 (manip3 (Some u) a b c t) [x1; x2; y1; y2; z1; z2] c0 f keep) = d_bbox (make_prim 3 (manip3 None a b c t) [x1; x2; y1; y2; z1; z2] c0 f keep).
Proof.
  intros Hx Hy Hz E L. cbn [make_prim d_bbox]. unfold configure.
  pose proof (unit_stretch_box3 u x1 x2 y1 y2 z1 z2 c0 (manip3 (Some u) a b c t) Hx Hy Hz E L eq_refl) as B.
  destruct (build_stretch 3 (manip3 (Some u) a b c t) ([x1; x2; y1; y2; z1; z2], c0)) as [bb cc] eqn:ES. cbn [fst] in B. subst bb.
  apply (build_translation_fst (manip3 None a b c t)). apply (build_rotation_fst 3 (manip3 None a b c t)).
Qed.
