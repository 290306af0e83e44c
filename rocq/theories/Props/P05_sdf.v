(** C20-C32: signed distance functions, set operations, transformations. *)
From Coq Require Import List ZArith Reals Bool Lra Lia.
From Flocq Require Import Core.
From Verif Require Import Model.Base Model.SDF Spec.Geom Spec.Domains Spec.Transform Proofs.Euclid Proofs.SDFPrim Proofs.SDFSets Proofs.SDFXform Proofs.SDFBox Proofs.SDFMore.
Import ListNotations.
Local Open Scope R_scope.

(** ---- C20 ---- *)
Theorem C20_disk_signed_distance : forall xc yc r x y, 0 <= r ->
  is_distance [x; y] (sphere [xc; yc] r) (Rabs (d_eval (Disk xc yc r no_manip) [x; y])) /\
  (d_eval (Disk xc yc r no_manip) [x; y] < 0 <-> edist [x; y] [xc; yc] < r) /\
  (d_eval (Disk xc yc r no_manip) [x; y] = 0 <-> edist [x; y] [xc; yc] = r) /\
  (d_eval (Disk xc yc r no_manip) [x; y] > 0 <-> edist [x; y] [xc; yc] > r).
Proof.
  intros xc yc r x y Hr. unfold Disk. rewrite no_manip_eval, ddisk_edist.
  split; [apply sphere_distance; [discriminate|reflexivity|exact Hr]|]. repeat split; lra.
Qed.
Print Assumptions C20_disk_signed_distance.
Theorem C20_ball_signed_distance : forall xc yc zc r x y z, 0 <= r ->
  is_distance [x; y; z] (sphere [xc; yc; zc] r) (Rabs (d_eval (Ball xc yc zc r no_manip) [x; y; z])) /\
  (d_eval (Ball xc yc zc r no_manip) [x; y; z] < 0 <-> edist [x; y; z] [xc; yc; zc] < r) /\
  (d_eval (Ball xc yc zc r no_manip) [x; y; z] = 0 <-> edist [x; y; z] [xc; yc; zc] = r) /\
  (d_eval (Ball xc yc zc r no_manip) [x; y; z] > 0 <-> edist [x; y; z] [xc; yc; zc] > r).
Proof.
  intros xc yc zc r x y z Hr. unfold Ball. rewrite no_manip_eval, dball_edist.
  split; [apply sphere_distance; [discriminate|reflexivity|exact Hr]|]. repeat split; lra.
Qed.
Print Assumptions C20_ball_signed_distance.
Example C20_case : d_eval (Disk 1 2 5 no_manip) [4; 6] = 0 /\ d_eval (Disk 1 2 5 no_manip) [1; 2] = -5.
Proof.
  rewrite !disk_eval. split.
  - replace ((4 - 1) ^ 2 + (6 - 2) ^ 2) with (5 * 5) by ring. rewrite sqrt_square; lra.
  - replace ((1 - 1) ^ 2 + (2 - 2) ^ 2) with 0 by ring. rewrite sqrt_0. lra.
Qed.

(** ---- C21 ---- *)
Theorem C21_rectangle_classification : forall x1 x2 y1 y2 x y,
  let d := d_eval (Rectangle x1 x2 y1 y2 no_manip) in let b := [x1; x2; y1; y2] in let p := [x; y] in
  (d p < 0 <-> in_interior b p) /\ (d p = 0 <-> on_boundary b p) /\ (d p > 0 <-> ~ in_box b p) /\
  (in_box b p -> is_distance p (on_boundary b) (- d p)) /\
  (forall q, in_box b q -> d p <= edist p q) /\
  (forall x' y', Rabs (d p - d [x'; y']) <= edist p [x'; y']).
Proof.
  intros x1 x2 y1 y2 x y d b p.
  assert (forall u v, d [u; v] = bd b [u; v]) as E by (intros u v; unfold d, Rectangle; rewrite no_manip_eval; apply rect_bd).
  assert (forall u v, fits b [u; v]) as F by (intros; repeat constructor).
  unfold p. rewrite E. split; [apply bd_interior, F|]. split; [apply bd_boundary, F|]. split.
  { rewrite <- (bd_box b [x; y] (F x y)). split; lra. }
  split; [apply bd_inside, F|]. split; [intros q; apply bd_outside, F|]. intros x' y'. rewrite E. apply bd_lipschitz; apply F.
Qed.
Print Assumptions C21_rectangle_classification.
Theorem C21_cube_classification : forall x1 x2 y1 y2 z1 z2 x y z,
  let d := d_eval (Cube x1 x2 y1 y2 z1 z2 no_manip) in let b := [x1; x2; y1; y2; z1; z2] in let p := [x; y; z] in
  (d p < 0 <-> in_interior b p) /\ (d p = 0 <-> on_boundary b p) /\ (d p > 0 <-> ~ in_box b p) /\
  (in_box b p -> is_distance p (on_boundary b) (- d p)) /\
  (forall q, in_box b q -> d p <= edist p q) /\
  (forall x' y' z', Rabs (d p - d [x'; y'; z']) <= edist p [x'; y'; z']).
Proof.
  intros x1 x2 y1 y2 z1 z2 x y z d b p.
  assert (forall u v w, d [u; v; w] = bd b [u; v; w]) as E by (intros; unfold d, Cube; rewrite no_manip_eval; apply block_bd).
  assert (forall u v w, fits b [u; v; w]) as F by (intros; repeat constructor).
  unfold p. rewrite E. split; [apply bd_interior, F|]. split; [apply bd_boundary, F|]. split.
  { rewrite <- (bd_box b [x; y; z] (F x y z)). split; lra. }
  split; [apply bd_inside, F|]. split; [intros q; apply bd_outside, F|]. intros x' y' z'. rewrite E. apply bd_lipschitz; apply F.
Qed.
Print Assumptions C21_cube_classification.
(** binary64: the sign computed with every difference rounded to nearest-even is the exact one *)
Theorem C21_binary64_sign : forall x1 x2 y1 y2 z1 z2 x y z,
  let b64 := generic_format radix2 (FLT_exp (-1074) 53) in let rnd := round radix2 (FLT_exp (-1074) 53) ZnearestE in
  (Forall b64 [x1; x2; y1; y2; x; y] ->
    (c_drectangle rnd x1 x2 y1 y2 [x; y] < 0 <-> in_interior [x1; x2; y1; y2] [x; y]) /\
    (c_drectangle rnd x1 x2 y1 y2 [x; y] <= 0 <-> in_box [x1; x2; y1; y2] [x; y])) /\
  (Forall b64 [x1; x2; y1; y2; z1; z2; x; y; z] ->
    (c_dblock rnd x1 x2 y1 y2 z1 z2 [x; y; z] < 0 <-> in_interior [x1; x2; y1; y2; z1; z2] [x; y; z]) /\
    (c_dblock rnd x1 x2 y1 y2 z1 z2 [x; y; z] <= 0 <-> in_box [x1; x2; y1; y2; z1; z2] [x; y; z])).
Proof.
  intros x1 x2 y1 y2 z1 z2 x y z b64 rnd. split; intros H.
  - exact (rect_rounded_sign _ _ _ _ _ _ _ _ b64_sign_exact H).
  - exact (block_rounded_sign _ _ _ _ _ _ _ _ _ _ _ b64_sign_exact H).
Qed.
Print Assumptions C21_binary64_sign.
(** the C++ and the Python implementation compute the same value, whatever the rounding *)
Theorem C21_python_cpp_agree : forall rnd x1 x2 y1 y2 z1 z2 p,
  c_drectangle rnd x1 x2 y1 y2 p = drectangle rnd x1 x2 y1 y2 p /\
  c_dblock rnd x1 x2 y1 y2 z1 z2 p = dblock rnd x1 x2 y1 y2 z1 z2 p.
Proof. intros. split; [apply cpp_python_rect|apply cpp_python_block]. Qed.
Print Assumptions C21_python_cpp_agree.
Example C21_case : Forall (generic_format radix2 (FLT_exp (-1074) 53)) [0; 2; 0; 1; 1; 1] /\ on_boundary [0; 2; 0; 1] [1; 1] /\ in_interior [0; 2; 0; 1] [1; / 2].
Proof.
  split; [|split].
  - assert (forall m, (Z.abs m <= 8)%Z -> generic_format radix2 (FLT_exp (-1074) 53) (IZR m)) as G.
    { intros m Hm. apply generic_format_FLT. exists (Float radix2 m 0); [unfold F2R; cbn; ring|cbn; lia|cbn; lia]. }
    repeat constructor; apply G; lia.
  - split.
    + constructor; [lra|]. constructor; [lra|constructor].
    + intros H. inversion H as [|? ? ? ? ? _ H2]; subst. inversion H2 as [|? ? ? ? ? H3 _]; subst. lra.
  - constructor; [lra|]. constructor; [lra|constructor].
Qed.

(** ---- C22 ---- *)
Theorem C22_torus : forall r1 r2 x y z, 0 < r1 -> 0 < r2 ->
  (d_eval (Torus r1 r2 no_manip) [x; y; z] <= 0 <-> exists cx cz, cx * cx + cz * cz = r1 * r1 /\ edist [x; y; z] [cx; 0; cz] <= r2) /\
  box_contains (Torus r1 r2 no_manip).
Proof.
  intros r1 r2 x y z H1 H2. unfold Torus. rewrite no_manip_eval. split; [apply torus_solid; assumption|].
  intros p. rewrite no_manip_eval, no_manip_bbox. intros Hp L. destruct (len3 p L) as (u & v & w & ->).
  pose proof (torus_box r1 r2 u v w H1 H2 Hp) as B. unfold Torus in B. rewrite no_manip_bbox in B. exact B.
Qed.
Print Assumptions C22_torus.
Theorem C22_cylinder : forall h r x y z, 0 < h -> 0 < r ->
  (d_eval (Cylinder h r no_manip) [x; y; z] <= 0 <-> x * x + z * z <= r * r /\ - (h / 2) <= y <= h / 2) /\
  box_contains (Cylinder h r no_manip).
Proof.
  intros h r x y z H1 H2. split; [apply cylinder_solid; assumption|].
  intros p Hp L. destruct (len3 p L) as (u & v & w & ->). apply cylinder_box; assumption.
Qed.
Print Assumptions C22_cylinder.
(** triangle with vertices (0,b), (w,-b/2), (-w,-b/2), w = 3b/4/0.866025, extruded to |z| <= h *)
Theorem C22_prism : forall b h x y z, 0 < b ->
  (d_eval (Prism b h no_manip) [x; y; z] <= 0 <->
   Rabs z <= h /\ exists l1 l2 l3, 0 <= l1 /\ 0 <= l2 /\ 0 <= l3 /\ l1 + l2 + l3 = 1 /\
     x = l1 * 0 + l2 * (3 / 4 * b / (866025 / 1000000)) + l3 * - (3 / 4 * b / (866025 / 1000000)) /\
     y = l1 * b + l2 * (- b / 2) + l3 * (- b / 2)) /\
  box_contains (Prism b h no_manip).
Proof.
  intros b h x y z Hb. unfold Prism. rewrite no_manip_eval. split; [apply prism_solid; exact Hb|].
  intros p. rewrite no_manip_eval, no_manip_bbox. intros Hp L. destruct (len3 p L) as (u & v & w & ->).
  pose proof (prism_box b h u v w Hb Hp) as B. unfold Prism in B. rewrite no_manip_bbox in B. exact B.
Qed.
Print Assumptions C22_prism.
Example C22_case : d_eval (Torus 3 1 no_manip) [3; 0; 0] <= 0 /\ d_eval (Cylinder 2 1 no_manip) [0; 1; 1] <= 0.
Proof.
  split.
  - apply C22_torus; try lra. exists 3, 0. split; [ring|]. unfold edist, sqdist. replace ((3 - 3) ^ 2 + ((0 - 0) ^ 2 + ((0 - 0) ^ 2 + 0))) with 0 by ring. rewrite sqrt_0. lra.
  - apply C22_cylinder; lra.
Qed.

(** ---- C23 ---- *)
Theorem C23_union : forall ds d x, Union 0 ds = Ok d ->
  (d_eval d x <= 0 <-> exists o, In o ds /\ d_eval o x <= 0) /\ (d_eval d x < 0 <-> exists o, In o ds /\ d_eval o x < 0).
Proof.
  intros ds d x H. split; [rewrite (union_le 0 ds d x 0 H eq_refl)|rewrite (union_lt 0 ds d x 0 H eq_refl)]; apply Exists_exists.
Qed.
Print Assumptions C23_union.
Theorem C23_intersection : forall ds d x, Intersection 0 ds = Ok d ->
  (d_eval d x <= 0 <-> forall o, In o ds -> d_eval o x <= 0) /\ (d_eval d x < 0 <-> forall o, In o ds -> d_eval o x < 0).
Proof.
  intros ds d x H. split; [rewrite (inter_le 0 ds d x 0 H eq_refl)|rewrite (inter_lt 0 ds d x 0 H eq_refl)]; apply Forall_forall.
Qed.
Print Assumptions C23_intersection.
Theorem C23_difference : forall o ds d x, Difference 0 (o :: ds) = Ok d ->
  (d_eval d x < 0 <-> d_eval o x < 0 /\ forall q, In q ds -> 0 < d_eval q x) /\
  (d_eval d x <= 0 <-> d_eval o x <= 0 /\ forall q, In q ds -> 0 <= d_eval q x).
Proof.
  intros o ds d x H. split; [rewrite (diff_lt 0 o ds d x H eq_refl)|rewrite (diff_le 0 o ds d x H eq_refl)]; apply and_iff_compat_l, Forall_forall.
Qed.
Print Assumptions C23_difference.
(** order and multiplicity of the operands do not matter *)
Theorem C23_value_of_set : forall ds ds' o d d' x, (forall v, In v (map (fun q => d_eval q x) ds) <-> In v (map (fun q => d_eval q x) ds')) ->
  (Union 0 ds = Ok d -> Union 0 ds' = Ok d' -> d_eval d x = d_eval d' x) /\
  (Intersection 0 ds = Ok d -> Intersection 0 ds' = Ok d' -> d_eval d x = d_eval d' x) /\
  (Difference 0 (o :: ds) = Ok d -> Difference 0 (o :: ds') = Ok d' -> d_eval d x = d_eval d' x).
Proof.
  intros ds ds' o d d' x HS. split; [|split].
  - intros H H'. destruct (set_init_eval _ _ _ H) as [N ->]. destruct (set_init_eval _ _ _ H') as [_ ->]. unfold union_vals. rewrite Reqb_refl.
    apply reduce_min_set; [apply map_nonempty, N|exact HS].
  - intros H H'. destruct (set_init_eval _ _ _ H) as [N ->]. destruct (set_init_eval _ _ _ H') as [_ ->]. unfold intersection_vals. rewrite Reqb_refl.
    apply reduce_max_set; [apply map_nonempty, N|exact HS].
  - unfold Difference. intros H H'. destruct (set_init_eval _ _ _ H) as [N ->]. destruct (set_init_eval _ _ _ H') as [_ ->]. unfold difference_vals. rewrite Reqb_refl.
    cbn [map]. apply reduce_max_set; [discriminate|]. intros v. cbn [In]. apply or_iff_compat_l. rewrite !in_map_iff.
    split; intros [u [E I]]; exists u; (split; [exact E|]); apply HS; exact I.
Qed.
Print Assumptions C23_value_of_set.
Example C23_case : exists d, Difference 0 [Disk 0 0 2 no_manip; Disk 0 0 1 no_manip] = Ok d.
Proof.
  unfold Difference. destruct (guard_accepts (fun ds x => difference_vals 0 (map (fun d => d_eval d x) ds)) (Disk 0 0 2 no_manip) [Disk 0 0 1 no_manip]) as [d [E _]]; [|eauto].
  intros d Hd. assert (length (d_bbox d) = 4%nat) as ->; [|cbn; lia].
  destruct Hd as [<- | [<- | []]]; unfold Disk; rewrite no_manip_bbox; reflexivity.
Qed.

(** ---- C24 ---- *)
Theorem C24_smooth_union : forall k ds d x m, 0 < k -> Union k ds = Ok d ->
  (exists o, In o ds /\ d_eval o x = m) -> (forall o, In o ds -> m <= d_eval o x) ->
  m - INR (length ds - 1) * (k / 4) <= d_eval d x <= m.
Proof.
  intros k ds d x m Hk H [o [Io Eo]] Hm. destruct (set_init_eval _ _ _ H) as [N ->].
  assert (reduce_ Rmin (map (fun q => d_eval q x) ds) = m) as <-.
  { apply Rle_antisym.
    - apply reduce_min_le; [apply map_nonempty, N|]. apply Exists_exists. exists m. split; [rewrite <- Eo; apply (in_map (fun q => d_eval q x)); exact Io|lra].
    - apply Rnot_lt_le. intros L. apply reduce_min_lt in L; [|apply map_nonempty, N]. apply Exists_exists in L. destruct L as [v [Iv Lv]].
      apply in_map_iff in Iv. destruct Iv as [q [<- Iq]]. pose proof (Hm q Iq). lra. }
  rewrite <- (map_length (fun q => d_eval q x) ds). apply union_smooth_bounds; [exact Hk|apply map_nonempty, N].
Qed.
Print Assumptions C24_smooth_union.
Theorem C24_smooth_intersection : forall k ds d x m, 0 < k -> Intersection k ds = Ok d ->
  (exists o, In o ds /\ d_eval o x = m) -> (forall o, In o ds -> d_eval o x <= m) ->
  m <= d_eval d x <= m + INR (length ds - 1) * (k / 4).
Proof.
  intros k ds d x m Hk H [o [Io Eo]] Hm. destruct (set_init_eval _ _ _ H) as [N ->].
  assert (reduce_ Rmax (map (fun q => d_eval q x) ds) = m) as <-.
  { apply Rle_antisym.
    - apply reduce_max_le; [apply map_nonempty, N|]. apply Forall_forall. intros v Iv. apply in_map_iff in Iv. destruct Iv as [q [<- Iq]]. apply Hm, Iq.
    - apply Rnot_lt_le. intros L. apply reduce_max_lt in L; [|apply map_nonempty, N]. rewrite Forall_forall in L.
      specialize (L m). rewrite <- Eo in L at 1. specialize (L (in_map (fun q => d_eval q x) _ _ Io)). lra. }
  rewrite <- (map_length (fun q => d_eval q x) ds). apply inter_smooth_bounds; [exact Hk|apply map_nonempty, N].
Qed.
Print Assumptions C24_smooth_intersection.
Theorem C24_smooth_difference_two : forall k o q d x, 0 < k -> Difference k [o; q] = Ok d ->
  Rmax (d_eval o x) (- d_eval q x) <= d_eval d x <= Rmax (d_eval o x) (- d_eval q x) + k / 4.
Proof. intros k o q d x Hk H. unfold Difference in H. destruct (set_init_eval _ _ _ H) as [_ ->]. apply diff_smooth_bounds2, Hk. Qed.
Print Assumptions C24_smooth_difference_two.
(** operands at least k apart *)
Theorem C24_far_operands_exact : forall k o q d x, 0 < k ->
  (Union k [o; q] = Ok d -> k <= Rabs (d_eval o x - d_eval q x) -> d_eval d x = Rmin (d_eval o x) (d_eval q x)) /\
  (Intersection k [o; q] = Ok d -> k <= Rabs (d_eval o x - d_eval q x) -> d_eval d x = Rmax (d_eval o x) (d_eval q x)) /\
  (Difference k [o; q] = Ok d -> k <= Rabs (d_eval o x + d_eval q x) -> d_eval d x = Rmax (d_eval o x) (- d_eval q x)).
Proof.
  intros k o q d x Hk. unfold Union, Intersection, Difference. split; [|split]; intros H HF; destruct (set_init_eval _ _ _ H) as [_ ->]; cbn [map].
  - apply union_far; assumption.
  - apply inter_far; assumption.
  - apply diff_far; assumption.
Qed.
Print Assumptions C24_far_operands_exact.
Example C24_case : union_vals 1 [0; 0] = - (1 / 4) /\ union_vals 1 [0; 3] = 0.
Proof.
  unfold union_vals. rewrite Reqb_neq by lra. cbn [reduce_ fold_left]. unfold smooth_union. split.
  - replace (0 - 0) with 0 by ring. rewrite Rabs_R0, Rmax_left, Rmin_left by lra. lra.
  - rewrite (Rabs_left (0 - 3)), Rmax_right, Rmin_left by lra. lra.
Qed.

(** ---- C25 ---- *)
Theorem C25_three_operands_refuted : forall k, 0 < k -> exists a b c, a < 0 /\ c < 0 /\
  difference_vals k [a; b; c] < 0 /\ difference_vals 0 [a; b; c] > 0.
Proof.
  intros k Hk. exists (-10 * k), (10 * k), (-10 * k). split; [lra|]. split; [lra|]. apply diff3_wrong, Hk.
Qed.
Print Assumptions C25_three_operands_refuted.
(** where no blending is active the result is A - (B - C) *)
Theorem C25_nested_difference : forall k a b c, 0 < k -> k <= Rabs (b + c) -> k <= Rabs (a + Rmax b (- c)) ->
  difference_vals k [a; b; c] = Rmax a (- Rmax b (- c)).
Proof. exact diff3_far. Qed.
Print Assumptions C25_nested_difference.
(** the same on domains: a disk from which another disk and itself are removed *)
Theorem C25_disks_refuted : exists d d0 p, let ops := [Disk 0 0 20 no_manip; Disk 100 0 20 no_manip; Disk 0 0 20 no_manip] in
  Difference 1 ops = Ok d /\ Difference 0 ops = Ok d0 /\ d_eval d p < 0 /\ d_eval d0 p > 0.
Proof.
  destruct (guard_accepts (fun ds x => difference_vals 1 (map (fun d => d_eval d x) ds)) (Disk 0 0 20 no_manip) [Disk 100 0 20 no_manip; Disk 0 0 20 no_manip]) as [d [E _]].
  { intros d Hd. assert (length (d_bbox d) = 4%nat) as ->; [|cbn; lia]. destruct Hd as [<- | [<- | [<- | []]]]; unfold Disk; rewrite no_manip_bbox; reflexivity. }
  destruct (guard_accepts (fun ds x => difference_vals 0 (map (fun d => d_eval d x) ds)) (Disk 0 0 20 no_manip) [Disk 100 0 20 no_manip; Disk 0 0 20 no_manip]) as [d0 [E0 _]].
  { intros d1 Hd. assert (length (d_bbox d1) = 4%nat) as ->; [|cbn; lia]. destruct Hd as [<- | [<- | [<- | []]]]; unfold Disk; rewrite no_manip_bbox; reflexivity. }
  exists d, d0, [0; 0]. cbn zeta. split; [exact E|]. split; [exact E0|].
  destruct (set_init_eval _ _ _ E) as [_ ->]. destruct (set_init_eval _ _ _ E0) as [_ ->]. cbn [map]. rewrite !disk_eval.
  replace ((0 - 0) ^ 2 + (0 - 0) ^ 2) with 0 by ring. rewrite sqrt_0. replace ((0 - 100) ^ 2 + (0 - 0) ^ 2) with (100 * 100) by ring.
  rewrite sqrt_square by lra. split.
  - rewrite diff3_far; try lra.
    + rewrite (Rmax_left (100 - 20)) by lra. unfold Rmax. destruct (Rle_dec _ _); lra.
    + rewrite Rabs_right; lra.
    + rewrite (Rmax_left (100 - 20)) by lra. rewrite Rabs_right; lra.
  - unfold difference_vals. rewrite Reqb_refl. cbn [map reduce_ fold_left]. unfold Rmax. repeat destruct (Rle_dec _ _); lra.
Qed.
Print Assumptions C25_disks_refuted.

(** ---- C26 ---- *)
Theorem C26_boxes : forall ds d, (forall o, In o ds -> d_dim o = d_dim d) -> (forall o, In o ds -> box_contains o) ->
  (Union 0 ds = Ok d -> box_contains d) /\
  (forall k, 0 <= k -> Intersection k ds = Ok d -> box_contains d) /\
  (forall k, 0 <= k -> Difference k ds = Ok d -> box_contains d).
Proof.
  intros ds d HD HC. split; [|split].
  - intros H. eapply union_box; eauto.
  - intros k Hk H. eapply inter_box; eauto. destruct (set_init_eval _ _ _ H) as [N _]. destruct ds as [|o ds]; [congruence|].
    exists o. split; [left; reflexivity|]. apply HC; left; reflexivity.
  - intros k Hk H. destruct ds as [|o ds]; [discriminate|]. eapply diff_box; eauto. apply HC; left; reflexivity.
Qed.
Print Assumptions C26_boxes.
Theorem C26_smooth_union_refuted : forall r k, 0 <= r -> 0 < k -> exists d,
  Union k [Disk 0 0 r no_manip; Disk 0 0 r no_manip] = Ok d /\ d_eval d [r + k / 4; 0] <= 0 /\
  ~ in_box (d_bbox d) [r + k / 4; 0] /\ box_contains (Disk 0 0 r no_manip).
Proof. exact smooth_union_escapes. Qed.
Print Assumptions C26_smooth_union_refuted.
Example C26_case : box_contains (Disk 1 2 3 no_manip) /\ d_dim (Disk 1 2 3 no_manip) = 2%nat.
Proof.
  split; [|reflexivity]. intros p. unfold Disk. rewrite no_manip_eval, no_manip_bbox. intros Hp L. apply disk_in_box; assumption.
Qed.

(** ---- C27 ---- *)
Theorem C27_transformed_2d : forall s a t q, stretch_ok 2 s -> trans_ok 2 t -> length q = 2%nat ->
  (forall xc yc r, d_eval (Disk xc yc r (manip2 s a t)) (forward2 s a t q) = d_eval (Disk xc yc r no_manip) q) /\
  (forall x1 x2 y1 y2, d_eval (Rectangle x1 x2 y1 y2 (manip2 s a t)) (forward2 s a t q) = d_eval (Rectangle x1 x2 y1 y2 no_manip) q).
Proof.
  intros s a t q Hs Ht L. split; intros; unfold Disk, Rectangle; rewrite no_manip_eval; cbn [make_prim d_eval]; rewrite manipulate2_bf by assumption; reflexivity.
Qed.
Print Assumptions C27_transformed_2d.
Theorem C27_transformed_3d : forall s a b c t q, stretch_ok 3 s -> trans_ok 3 t -> length q = 3%nat ->
  let fw := forward3 s a b c t q in let m := manip3 s a b c t in
  (forall xc yc zc r, d_eval (Ball xc yc zc r m) fw = d_eval (Ball xc yc zc r no_manip) q) /\
  (forall x1 x2 y1 y2 z1 z2, d_eval (Cube x1 x2 y1 y2 z1 z2 m) fw = d_eval (Cube x1 x2 y1 y2 z1 z2 no_manip) q) /\
  (forall r1 r2, d_eval (Torus r1 r2 m) fw = d_eval (Torus r1 r2 no_manip) q) /\
  (forall b h, d_eval (Prism b h m) fw = d_eval (Prism b h no_manip) q) /\
  (forall h r, d_eval (Cylinder h r m) fw = d_eval (Cylinder h r no_manip) q).
Proof.
  intros s a b c t q Hs Ht L fw m. unfold fw, m. repeat split; intros; unfold Ball, Cube, Torus, Prism, Cylinder; rewrite no_manip_eval; cbn [make_prim d_eval]; rewrite manipulate3_bf by assumption; reflexivity.
Qed.
Print Assumptions C27_transformed_3d.
Theorem C27_every_point_is_an_image : forall p,
  (forall s a t, stretch_ok 2 s -> trans_ok 2 t -> length p = 2%nat -> exists q, length q = 2%nat /\ forward2 s a t q = p) /\
  (forall s a b c t, stretch_ok 3 s -> trans_ok 3 t -> length p = 3%nat -> exists q, length q = 3%nat /\ forward3 s a b c t q = p).
Proof.
  intros p. split; intros.
  - destruct (manipulate2_fb s a t p H H0 H1) as [E L]. eexists; split; [exact L|exact E].
  - destruct (manipulate3_fb s a b c t p H H0 H1) as [E L]. eexists; split; [exact L|exact E].
Qed.
Print Assumptions C27_every_point_is_an_image.
Example C27_case : stretch_ok 2 (Some [2; 0]) /\ trans_ok 2 (Some [1; 5]) /\ forward2 (Some [2; 0]) (PI / 2) (Some [1; 5]) [1; 0] = [1; 7].
Proof.
  split; [split; [reflexivity|apply Exists_cons_hd; lra]|]. split; [reflexivity|].
  unfold forward2, opt_pt, stretch_pt, rot2_pt, translate_pt. rewrite cos_PI2, sin_PI2.
  replace (2 * 2 + 0 * 0) with (2 * 2) by ring. rewrite sqrt_square by lra. apply (f_equal2 (@cons R)); [field|]. apply (f_equal2 (@cons R)); [field|reflexivity].
Qed.

(** ---- C28 ---- *)
Theorem C28_box_2d : forall s a t, stretch_ok 2 s -> trans_ok 2 t ->
  (forall xc yc r, box_contains (Disk xc yc r (manip2 s a t))) /\
  (forall x1 x2 y1 y2, box_contains (Rectangle x1 x2 y1 y2 (manip2 s a t))).
Proof.
  intros s a t Hs Ht. split; intros; apply make_prim_box2; try assumption; intros q L; [apply disk_in_box|apply rect_in_box]; exact L.
Qed.
Print Assumptions C28_box_2d.
Theorem C28_box_3d_one_axis : forall s a b c t, stretch_ok 3 s -> trans_ok 3 t -> one_axis a b c ->
  let m := manip3 s a b c t in
  (forall xc yc zc r, box_contains (Ball xc yc zc r m)) /\
  (forall x1 x2 y1 y2 z1 z2, box_contains (Cube x1 x2 y1 y2 z1 z2 m)) /\
  (forall r1 r2, 0 < r1 -> 0 < r2 -> box_contains (Torus r1 r2 m)) /\
  (forall b h, 0 < b -> box_contains (Prism b h m)) /\
  (forall h r, 0 < h -> 0 < r -> box_contains (Cylinder h r m)).
Proof.
  intros s a b c t Hs Ht H1 m. unfold m. split; [|split; [|split; [|split]]]; intros; apply make_prim_box3; try assumption; intros q L HQ.
  - apply ball_in_box; assumption.
  - apply cube_in_box; assumption.
  - destruct (len3 q L) as (x & y & z & ->). pose proof (torus_box r1 r2 x y z H H0 HQ) as B. unfold Torus in B. rewrite no_manip_bbox in B. exact B.
  - destruct (len3 q L) as (x & y & z & ->). pose proof (prism_box b0 h x y z H HQ) as B. unfold Prism in B. rewrite no_manip_bbox in B. exact B.
  - destruct (len3 q L) as (x & y & z & ->). pose proof (cylinder_box h r x y z H H0) as B. unfold Cylinder in B. rewrite no_manip_bbox, no_manip_eval in B. apply B, HQ.
Qed.
Print Assumptions C28_box_3d_one_axis.
Theorem C28_two_axes_refuted : exists p, length p = 3%nat /\
  d_eval (Cube (-1) 1 (-1) 1 (-1) 1 (manip3 None (PI / 4) (PI / 4) 0 None)) p <= 0 /\
  ~ in_box (d_bbox (Cube (-1) 1 (-1) 1 (-1) 1 (manip3 None (PI / 4) (PI / 4) 0 None))) p.
Proof. exists tilted_corner. split; [reflexivity|]. split; [apply tilted_inside|apply tilted_outside]. Qed.
Print Assumptions C28_two_axes_refuted.
Example C28_case : stretch_ok 3 (Some [1; 2; 3]) /\ trans_ok 3 (Some [1; 1; 1]) /\ one_axis 0 (PI / 3) 0.
Proof. split; [split; [reflexivity|apply Exists_cons_hd; lra]|]. split; [reflexivity|]. right; left. split; reflexivity. Qed.

(** ---- C29 ---- *)
Theorem C29_corners : forall b n, length b = (2 * n)%nat ->
  length (corners b) = (2 ^ n)%nat /\ (forall p, In p (corners b) <-> is_corner b p) /\ (proper_box b -> NoDup (corners b)).
Proof.
  intros b n L. split; [apply corners_length; exact L|]. split; [intros p; apply (corners_spec b n p L)|apply corners_nodup].
Qed.
Print Assumptions C29_corners.
Theorem C29_corners_without_translation : forall m, m_trans m = None ->
  (forall x1 x2 y1 y2, let d := Rectangle x1 x2 y1 y2 m in d_corners d = Some (corners (d_bbox d))) /\
  (forall x1 x2 y1 y2 z1 z2, let d := Cube x1 x2 y1 y2 z1 z2 m in d_corners d = Some (corners (d_bbox d))).
Proof. intros m T. split; intros; [apply rect_corners_fresh|apply cube_corners_fresh]; exact T. Qed.
Print Assumptions C29_corners_without_translation.
(** with a translation the box moves and the corners stay *)
Theorem C29_corners_ignore_translation : forall r s t,
  (forall x1 x2 y1 y2, let d := Rectangle x1 x2 y1 y2 (mkManip r s (Some t)) in let d0 := Rectangle x1 x2 y1 y2 (mkManip r s None) in
     d_bbox d = shift_box (d_bbox d0) t /\ d_corners d = Some (corners (d_bbox d0))) /\
  (forall x1 x2 y1 y2 z1 z2, let d := Cube x1 x2 y1 y2 z1 z2 (mkManip r s (Some t)) in let d0 := Cube x1 x2 y1 y2 z1 z2 (mkManip r s None) in
     d_bbox d = shift_box (d_bbox d0) t /\ d_corners d = Some (corners (d_bbox d0))).
Proof.
  intros r s t. split; intros; (split; [|]).
  - exact (proj2 (configure_untranslated 2 (mkManip r s (Some t)) ([x1; x2; y1; y2], Some (corners [x1; x2; y1; y2])))).
  - apply (rect_corners_stale x1 x2 y1 y2 (mkManip r s (Some t))).
  - exact (proj2 (configure_untranslated 3 (mkManip r s (Some t)) ([x1; x2; y1; y2; z1; z2], Some (corners [x1; x2; y1; y2; z1; z2])))).
  - apply (cube_corners_stale x1 x2 y1 y2 z1 z2 (mkManip r s (Some t))).
Qed.
Print Assumptions C29_corners_ignore_translation.
(** a rectangle moved by more than its width: all its corner points lie outside, and all are kept as fixed points *)
Theorem C29_stale_corners_kept : forall x1 x2 y1 y2 tx ty deps, x1 <= x2 -> y1 <= y2 -> x2 - x1 < Rabs tx -> 0 <= deps ->
  let d := Rectangle x1 x2 y1 y2 (manip2 None 0 (Some [tx; ty])) in let cs := corners [x1; x2; y1; y2] in
  d_corners d = Some cs /\ (forall p, In p cs -> d_eval d p > 0) /\ kept_corners (d_eval d) deps cs = cs.
Proof. exact moved_rect_corners. Qed.
Print Assumptions C29_stale_corners_kept.
Example C29_case : proper_box [0; 1; 0; 1] /\ length (corners [0; 1; 0; 1]) = 4%nat /\ 1 - 0 < Rabs 5.
Proof. split; [repeat (constructor; [lra|]); constructor|]. split; [reflexivity|]. rewrite Rabs_right; lra. Qed.

(** ---- C30 ---- *)
Theorem C30_folded_coordinate : forall x p, 0 < p ->
  - (p / 2) <= fold_coord x p < p / 2 /\ (exists n : Z, fold_coord x p = x - IZR n * p) /\
  (forall n : Z, fold_coord (x + IZR n * p) p = fold_coord x p).
Proof.
  intros x p Hp. split; [apply fold_coord_range, Hp|]. split; [apply fold_coord_cong, Hp|]. intros n. apply fold_coord_periodic, Hp.
Qed.
Print Assumptions C30_folded_coordinate.
Theorem C30_repeat : forall d x1 x2 y1 y2 z1 z2 px py pz x y z, 0 < px -> 0 < py -> 0 < pz ->
  let rd := Repeat x1 x2 y1 y2 z1 z2 d [px; py; pz] in
  exists fx fy fz, - (px / 2) <= fx < px / 2 /\ - (py / 2) <= fy < py / 2 /\ - (pz / 2) <= fz < pz / 2 /\
    (exists n m k, x = fx + IZR n * px /\ y = fy + IZR m * py /\ z = fz + IZR k * pz) /\
    (d_eval rd [x; y; z] <= 0 <-> in_box [x1; x2; y1; y2; z1; z2] [x; y; z] /\ d_eval d [fx; fy; fz] <= 0).
Proof.
  intros d x1 x2 y1 y2 z1 z2 px py pz x y z Hx Hy Hz rd. exists (fold_coord x px), (fold_coord y py), (fold_coord z pz).
  split; [apply fold_coord_range, Hx|]. split; [apply fold_coord_range, Hy|]. split; [apply fold_coord_range, Hz|]. split.
  - destruct (fold_coord_cong x px Hx) as [n En], (fold_coord_cong y py Hy) as [m Em], (fold_coord_cong z pz Hz) as [k Ek].
    exists n, m, k. rewrite En, Em, Ek. repeat split; ring.
  - unfold rd. cbn [Repeat d_eval]. unfold repeat_eval. rewrite Rmax_le, block_bd, (bd_box [x1; x2; y1; y2; z1; z2] [x; y; z]) by repeat constructor.
    unfold map2. cbn [combine map fst snd]. tauto.
Qed.
Print Assumptions C30_repeat.
(** two points a whole number of periods apart in the box get the same tile value *)
(** the declared box is the given one, the object is 3D and offers no corner points *)
Theorem C30_box : forall d x1 x2 y1 y2 z1 z2 period,
  let rd := Repeat x1 x2 y1 y2 z1 z2 d period in d_bbox rd = [x1; x2; y1; y2; z1; z2] /\ d_dim rd = 3%nat /\ d_corners rd = None /\
  (forall px py pz x y z, period = [px; py; pz] -> d_eval rd [x; y; z] <= 0 -> in_box (d_bbox rd) [x; y; z]).
Proof.
  intros d x1 x2 y1 y2 z1 z2 period rd. split; [reflexivity|]. split; [reflexivity|]. split; [reflexivity|].
  intros px py pz x y z -> H. unfold rd in *. cbn [Repeat d_eval d_bbox] in *. unfold repeat_eval in H.
  rewrite Rmax_le, block_bd, (bd_box [x1; x2; y1; y2; z1; z2] [x; y; z]) in H by repeat constructor. apply H.
Qed.
Print Assumptions C30_box.
Theorem C30_periodic : forall d x1 x2 y1 y2 z1 z2 px py pz x y z (n m k : Z), 0 < px -> 0 < py -> 0 < pz ->
  let rd := Repeat x1 x2 y1 y2 z1 z2 d [px; py; pz] in
  in_box [x1; x2; y1; y2; z1; z2] [x; y; z] -> in_box [x1; x2; y1; y2; z1; z2] [x + IZR n * px; y + IZR m * py; z + IZR k * pz] ->
  (d_eval rd [x; y; z] <= 0 <-> d_eval rd [x + IZR n * px; y + IZR m * py; z + IZR k * pz] <= 0).
Proof.
  intros d x1 x2 y1 y2 z1 z2 px py pz x y z n m k Hx Hy Hz rd B1 B2. unfold rd. cbn [Repeat d_eval]. unfold repeat_eval, map2. cbn [combine map fst snd].
  rewrite !fold_coord_periodic by assumption. rewrite !Rmax_le, !block_bd, (bd_box [x1; x2; y1; y2; z1; z2] [x; y; z]), (bd_box [x1; x2; y1; y2; z1; z2] [x + _; _; _]) by repeat constructor.
  tauto.
Qed.
Print Assumptions C30_periodic.
Example C30_case : fold_coord 7 2 = -1 /\ fold_coord (1 / 2) 2 = 1 / 2.
Proof.
  rewrite !fold_coord_eq by lra. split.
  - rewrite (int_part_unique _ 4); [lra|lra].
  - rewrite (int_part_unique _ 0); [lra|lra].
Qed.

(** ---- C31 ---- *)
Theorem C31_guard_never_rejects : forall eval ds, set_init eval ds <> Err AssertionError.
Proof.
  intros eval ds. unfold set_init. destruct ds as [|d0 ds']; [discriminate|]. unfold dims_guard.
  assert (forall n i l, set_bbox n i l <> Err AssertionError) as H.
  { induction n as [|n IH]; intros i l; cbn [set_bbox]; [discriminate|].
    destruct (get_all (2 * i) l); [destruct (get_all (2 * i + 1) l)|]; try discriminate.
    specialize (IH (S i) l). destruct (set_bbox n (S i) l); cbn [rbind]; [discriminate|]. exact IH. }
  specialize (H (d_dim d0) 0%nat (d0 :: ds')). destruct (set_bbox (d_dim d0) 0 (d0 :: ds')); cbn [rbind]; [discriminate|congruence].
Qed.
Print Assumptions C31_guard_never_rejects.
(** a list whose first operand has the smallest dimension is accepted, whatever follows *)
Theorem C31_mixed_list_accepted : forall d0 ds k, (forall d, In d (d0 :: ds) -> (2 * d_dim d0 <= length (d_bbox d))%nat) ->
  (exists d, Union k (d0 :: ds) = Ok d /\ d_dim d = d_dim d0) /\ (exists d, Intersection k (d0 :: ds) = Ok d /\ d_dim d = d_dim d0) /\
  (exists d, Difference k (d0 :: ds) = Ok d /\ d_dim d = d_dim d0).
Proof. intros d0 ds k H. unfold Union, Intersection, Difference. split; [|split]; apply guard_accepts; exact H. Qed.
Print Assumptions C31_mixed_list_accepted.
(** a 3D operand first and a 2D operand later: an index error, not the intended message *)
Theorem C31_three_d_first_index_error : forall d0 ds k d, d_dim d0 = 3%nat -> In d ds -> length (d_bbox d) = 4%nat ->
  Union k (d0 :: ds) = Err IndexError /\ Intersection k (d0 :: ds) = Err IndexError /\ Difference k (d0 :: ds) = Err IndexError.
Proof. intros d0 ds k d H3 Hd HL. unfold Union, Intersection, Difference. split; [|split]; eapply guard_index_error; eauto. Qed.
Print Assumptions C31_three_d_first_index_error.
Example C31_case : (exists d, Union 0 [Disk 0 0 1 no_manip; Ball 0 0 0 1 no_manip] = Ok d) /\ Union 0 [Ball 0 0 0 1 no_manip; Disk 0 0 1 no_manip] = Err IndexError.
Proof.
  split.
  - destruct (C31_mixed_list_accepted (Disk 0 0 1 no_manip) [Ball 0 0 0 1 no_manip] 0) as [[d [E _]] _]; [|eauto].
    intros d [<- | [<- | []]]; unfold Disk, Ball; rewrite no_manip_bbox; cbn; lia.
  - apply (C31_three_d_first_index_error (Ball 0 0 0 1 no_manip) [Disk 0 0 1 no_manip] 0 (Disk 0 0 1 no_manip)); [reflexivity|left; reflexivity|].
    unfold Disk. rewrite no_manip_bbox. reflexivity.
Qed.

(** ---- C32 ---- *)
(** array_after n w: the caller's array after n constructions with it *)
Theorem C32_array_overwritten : forall w n, Exists (fun t => t <> 0) w ->
  array_after (S n) w = normalise w /\ norm2 (array_after (S n) w) = 1.
Proof. intros w n H. rewrite array_after_S by exact H. split; [reflexivity|apply norm_normalise, H]. Qed.
Print Assumptions C32_array_overwritten.
(** every later construction gives the unstretched primitive: same values, same box *)
Theorem C32_second_construction_unstretched : forall w n, Exists (fun t => t <> 0) w ->
  (forall a t p xc yc r, length w = 2%nat -> trans_ok 2 t -> length p = 2%nat ->
     d_eval (Disk xc yc r (manip2 (Some (array_after (S n) w)) a t)) p = d_eval (Disk xc yc r (manip2 None a t)) p /\
     (0 <= r -> d_bbox (Disk xc yc r (manip2 (Some (array_after (S n) w)) a t)) = d_bbox (Disk xc yc r (manip2 None a t)))) /\
  (forall a t p x1 x2 y1 y2, length w = 2%nat -> trans_ok 2 t -> length p = 2%nat -> x1 <= x2 -> y1 <= y2 ->
     d_eval (Rectangle x1 x2 y1 y2 (manip2 (Some (array_after (S n) w)) a t)) p = d_eval (Rectangle x1 x2 y1 y2 (manip2 None a t)) p /\
     d_bbox (Rectangle x1 x2 y1 y2 (manip2 (Some (array_after (S n) w)) a t)) = d_bbox (Rectangle x1 x2 y1 y2 (manip2 None a t))) /\
  (forall a b c t p x1 x2 y1 y2 z1 z2, length w = 3%nat -> trans_ok 3 t -> length p = 3%nat -> x1 <= x2 -> y1 <= y2 -> z1 <= z2 ->
     d_eval (Cube x1 x2 y1 y2 z1 z2 (manip3 (Some (array_after (S n) w)) a b c t)) p = d_eval (Cube x1 x2 y1 y2 z1 z2 (manip3 None a b c t)) p /\
     d_bbox (Cube x1 x2 y1 y2 z1 z2 (manip3 (Some (array_after (S n) w)) a b c t)) = d_bbox (Cube x1 x2 y1 y2 z1 z2 (manip3 None a b c t))).
Proof.
  intros w n H. rewrite array_after_S by exact H. pose proof (norm_normalise w H) as E.
  assert (length (normalise w) = length w) as LN by (unfold normalise; apply map_length).
  split; [|split].
  - intros a t p xc yc r L Ht Lp. split.
    + unfold Disk. cbn [make_prim d_eval]. rewrite manipulate_unit_stretch2; try assumption; [reflexivity|congruence].
    + intros Hr. apply unit_stretch_bbox2; try assumption; try lra. congruence.
  - intros a t p x1 x2 y1 y2 L Ht Lp Hx Hy. split.
    + unfold Rectangle. cbn [make_prim d_eval]. rewrite manipulate_unit_stretch2; try assumption; [reflexivity|congruence].
    + apply unit_stretch_bbox2; try assumption. congruence.
  - intros a b c t p x1 x2 y1 y2 z1 z2 L Ht Lp Hx Hy Hz. split.
    + unfold Cube. cbn [make_prim d_eval]. rewrite manipulate_unit_stretch3; try assumption; [reflexivity|congruence].
    + apply unit_stretch_bbox3; try assumption. congruence.
Qed.
Print Assumptions C32_second_construction_unstretched.
(** two disks built from the same array agree only when the vector had unit length *)
Theorem C32_two_disks_differ : forall w r, stretch_ok 2 (Some w) -> norm2 w <> 1 -> exists p,
  d_eval (Disk 0 0 r (manip2 (Some w) 0 None)) p <> d_eval (Disk 0 0 r (manip2 (Some (array_after 1 w)) 0 None)) p.
Proof.
  intros w r Hs Hn. exists w. destruct (Hs) as [L N]. rewrite first_disk_value by exact Hs.
  destruct (C32_second_construction_unstretched w 0 N) as [D _]. destruct (D 0 None w 0 0 r L I L) as [-> _].
  change (manip2 None 0 None) with no_manip. rewrite plain_disk_value by exact L. intros E. apply Hn. lra.
Qed.
Print Assumptions C32_two_disks_differ.
Example C32_case : stretch_ok 2 (Some [3; 4]) /\ norm2 [3; 4] = 5.
Proof.
  split; [split; [reflexivity|apply Exists_cons_hd; lra]|]. unfold norm2, dot, map2. cbn [combine map fst snd fold_right].
  replace (3 * 3 + (4 * 4 + 0)) with (5 * 5) by ring. apply sqrt_square. lra.
Qed.
