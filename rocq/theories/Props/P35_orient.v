(** C100: the orientation of cells in binary64. *)
From Coq Require Import List ZArith Reals Bool Arith Lia Lra Permutation.
From Flocq Require Import Core.
From Verif Require Import Model.Base Model.FastHJ Model.Simplex Model.Mesh Model.Blocker Model.Snap Model.Orient Spec.MeshTopo Proofs.ListAux Proofs.MeshAux Proofs.FixMeshProofs Proofs.SnapProofs Proofs.OrientProofs
  Props.P06_mesh Props.P18_generate Props.P31_snap Props.P32_round.
Import ListNotations.
Local Open Scope R_scope.

(** the computed area of a triangle in a box of the sides X, Y is off by at most 2^-50 X Y (and the smallest doubles), so its sign is
    right for triangles with a larger area than that *)
Theorem C100_area : forall s X Y, length s = 3%nat -> (forall a, In a s -> length a = 2%nat) -> (forall a x, In a s -> In x a -> fmt64 x) ->
  (forall a b, In a s -> In b s -> Rabs (nth 0 a 0 - nth 0 b 0) <= X /\ Rabs (nth 1 a 0 - nth 1 b 0) <= Y) ->
  let d := / 2 ^ 50 * (X * Y) + / 2 ^ 1073 in
  Rabs (simp_vol64 s - simp_vol s) <= d /\ (d < simp_vol s -> 0 < simp_vol64 s) /\ (simp_vol s < - d -> simp_vol64 s < 0).
Proof.
  intros s X Y L D F W d. assert (Q : Rabs (simp_vol64 s - simp_vol s) <= d) by (apply vol2_err; try assumption; intros a b A B; apply (W a b A B)).
  clearbody d. split; [exact Q|]. apply Rabs_le_inv in Q. split; intro; lra.
Qed.
Print Assumptions C100_area.
(** the same for tetrahedra *)
Theorem C100_volume : forall s X Y Z, length s = 4%nat -> (forall a, In a s -> length a = 3%nat) -> (forall a x, In a s -> In x a -> fmt64 x) ->
  (forall a b, In a s -> In b s -> Rabs (nth 0 a 0 - nth 0 b 0) <= X /\ Rabs (nth 1 a 0 - nth 1 b 0) <= Y /\ Rabs (nth 2 a 0 - nth 2 b 0) <= Z) ->
  let d := / 2 ^ 49 * (X * Y * Z) + / 2 ^ 1074 * (1 + X + Y + Z) in
  Rabs (simp_vol64 s - simp_vol s) <= d /\ (d < simp_vol s -> 0 < simp_vol64 s) /\ (simp_vol s < - d -> simp_vol64 s < 0).
Proof.
  intros s X Y Z L D F W d. assert (Q : Rabs (simp_vol64 s - simp_vol s) <= d) by (apply vol3_err; try assumption; intros a b A B; apply (W a b A B)).
  clearbody d. split; [exact Q|]. apply Rabs_le_inv in Q. split; intro; lra.
Qed.
Print Assumptions C100_volume.

Lemma all64_split uniqK uniqR ptol p t del p' t' jx : fix_mesh_all64 uniqK uniqR ptol p t del true = Ok (p', t', jx) ->
  exists t0, fix_mesh64 uniqK uniqR ptol p t del false = Ok (p', t0, jx) /\ t' = map (orient64 p') t0.
Proof.
  unfold fix_mesh_all64, rbind. destruct (fix_mesh64 _ _ _ _ _ _ _) as [[[p2 t2] j2]|e]; [|discriminate]. intro H. injection H as <- <- <-. exists t2. tauto.
Qed.
Lemma orient64_vol p r d : Rabs (simp_vol64 (map (fun v => nth v p []) r) - simp_vol (map (fun v => nth v p []) r)) <= d ->
  - d <= simp_vol (map (fun v => nth v p []) (orient64 p r)) /\ Permutation (orient64 p r) r.
Proof.
  intro H. apply Rabs_le_inv in H. unfold orient64. destruct (Rltb _ 0) eqn:E.
  - apply Rltb_true in E. split; [| destruct r as [|a [|b l]]; try reflexivity; apply perm_swap].
    replace (map (fun v => nth v p []) (swap2 r)) with (swap2 (map (fun v => nth v p []) r)) by (destruct r as [|a [|b l]]; reflexivity). rewrite simp_vol_swap. lra.
  - apply Rltb_false in E. split; [lra | reflexivity].
Qed.
(** every triangle that fix_mesh returns is counter-clockwise, or thinner than the rounding: for every box of the sides X, Y around it
    its signed area is at least - (2^-50 X Y + 2^-1073) *)
Theorem C100_fix_mesh_2d : forall uniqK uniqR ptol p t delete_unused p' t' jx, uniq_ok uniqK -> uniq_ok uniqR ->
  fix_mesh_all64 uniqK uniqR ptol p t delete_unused true = Ok (p', t', jx) ->
  (forall q x, In q p -> In x q -> fmt64 x) -> (forall q, In q p -> length q = 2%nat) -> (forall r, In r t -> length r = 3%nat) ->
  forall r X Y, In r t' -> (forall a b, In a r -> In b r -> Rabs (nth 0 (nth a p' []) 0 - nth 0 (nth b p' []) 0) <= X /\ Rabs (nth 1 (nth a p' []) 0 - nth 1 (nth b p' []) 0) <= Y) ->
  - (/ 2 ^ 50 * (X * Y) + / 2 ^ 1073) <= simp_vol (map (fun v => nth v p' []) r).
Proof.
  intros uniqK uniqR ptol p t del p' t' jx HK HR H F D L r X Y I W. destruct (all64_split _ _ _ _ _ _ _ _ _ H) as (t0 & H0 & ->).
  apply in_map_iff in I. destruct I as (r0 & <- & I). unfold fix_mesh64 in H0. set (k := snap_key _) in H0.
  pose proof (fix_mesh_valid _ _ _ _ _ _ _ _ H0) as V.
  destruct (fix_mesh_clean uniqK uniqR k HK HR p t V del false p' t0 jx H0) as [[A B C D' E G] _].
  destruct (E r0 I) as (r1 & I1 & P1).
  assert (L0 : length r0 = 3%nat). { apply Permutation_length in P1. unfold row_keys in P1. rewrite !map_length in P1. rewrite P1. apply L, I1. }
  assert (PR : forall v, In v r0 -> In (nth v p' []) p) by (intros v Hv; apply B, nth_In, (A r0 v I Hv)).
  assert (PM : Permutation (orient64 p' r0) r0).
  { unfold orient64. destruct (Rltb _ 0); [| reflexivity]. destruct r0 as [|a [|b l]]; try reflexivity. apply perm_swap. }
  apply orient64_vol. apply C100_area; [rewrite map_length; exact L0 | | |].
  - intros a Ha. apply in_map_iff in Ha. destruct Ha as (v & <- & Hv). apply D, PR, Hv.
  - intros a x Ha Hx. apply in_map_iff in Ha. destruct Ha as (v & <- & Hv). exact (F _ _ (PR v Hv) Hx).
  - intros a b Ha Hb. apply in_map_iff in Ha, Hb. destruct Ha as (v & <- & Hv), Hb as (w & <- & Hw). apply W; apply (Permutation_in _ (Permutation_sym PM)); assumption.
Qed.
Print Assumptions C100_fix_mesh_2d.
Theorem C100_fix_mesh_3d : forall uniqK uniqR ptol p t delete_unused p' t' jx, uniq_ok uniqK -> uniq_ok uniqR ->
  fix_mesh_all64 uniqK uniqR ptol p t delete_unused true = Ok (p', t', jx) ->
  (forall q x, In q p -> In x q -> fmt64 x) -> (forall q, In q p -> length q = 3%nat) -> (forall r, In r t -> length r = 4%nat) ->
  forall r X Y Z, In r t' -> (forall a b, In a r -> In b r -> Rabs (nth 0 (nth a p' []) 0 - nth 0 (nth b p' []) 0) <= X /\
    Rabs (nth 1 (nth a p' []) 0 - nth 1 (nth b p' []) 0) <= Y /\ Rabs (nth 2 (nth a p' []) 0 - nth 2 (nth b p' []) 0) <= Z) ->
  - (/ 2 ^ 49 * (X * Y * Z) + / 2 ^ 1074 * (1 + X + Y + Z)) <= simp_vol (map (fun v => nth v p' []) r).
Proof.
  intros uniqK uniqR ptol p t del p' t' jx HK HR H F D L r X Y Z I W. destruct (all64_split _ _ _ _ _ _ _ _ _ H) as (t0 & H0 & ->).
  apply in_map_iff in I. destruct I as (r0 & <- & I). unfold fix_mesh64 in H0. set (k := snap_key _) in H0.
  pose proof (fix_mesh_valid _ _ _ _ _ _ _ _ H0) as V.
  destruct (fix_mesh_clean uniqK uniqR k HK HR p t V del false p' t0 jx H0) as [[A B C D' E G] _].
  destruct (E r0 I) as (r1 & I1 & P1).
  assert (L0 : length r0 = 4%nat). { apply Permutation_length in P1. unfold row_keys in P1. rewrite !map_length in P1. rewrite P1. apply L, I1. }
  assert (PR : forall v, In v r0 -> In (nth v p' []) p) by (intros v Hv; apply B, nth_In, (A r0 v I Hv)).
  assert (PM : Permutation (orient64 p' r0) r0).
  { unfold orient64. destruct (Rltb _ 0); [| reflexivity]. destruct r0 as [|a [|b l]]; try reflexivity. apply perm_swap. }
  apply orient64_vol. apply C100_volume; [rewrite map_length; exact L0 | | |].
  - intros a Ha. apply in_map_iff in Ha. destruct Ha as (v & <- & Hv). apply D, PR, Hv.
  - intros a x Ha Hx. apply in_map_iff in Ha. destruct Ha as (v & <- & Hv). exact (F _ _ (PR v Hv) Hx).
  - intros a b Ha Hb. apply in_map_iff in Ha, Hb. destruct Ha as (v & <- & Hv), Hb as (w & <- & Hw). apply W; apply (Permutation_in _ (Permutation_sym PM)); assumption.
Qed.
Print Assumptions C100_fix_mesh_3d.

Lemma three_fix k q0 q1 q2 : k q0 <> k q1 -> k q0 <> k q2 -> k q1 <> k q2 ->
  fix_mesh (nodup key_dec) (nodup row_dec) k [q0; q1; q2] [[0;1;2]%nat] false false = Ok ([q0; q1; q2], [[0;1;2]%nat], [0;1;2]%nat).
Proof.
  intros A B C. unfold fix_mesh. assert (E : nodup key_dec (map k [q0; q1; q2]) = [k q0; k q1; k q2]).
  { cbn [map]. apply nodup_fixed_point. constructor; [intros [H | [H | []]]; congruence|]. constructor; [intros [H | []]; congruence|]. constructor; [intros [] | constructor]. }
  rewrite E. assert (T : forall x, key_eqb x x = true) by (intro x; unfold key_eqb; destruct (key_dec x x); congruence).
  assert (N : forall x y, x <> y -> key_eqb x y = false) by (intros x y H; unfold key_eqb; destruct (key_dec x y); congruence).
  cbn [map find_pos]. rewrite !T, !(N (k q0)), !(N (k q1)), !(N (k q2)) by congruence. reflexivity.
Qed.
Definition ep : R := / 4503599627370496.
Definition thin : list (list R) := [[0; 0]; [2 * (1 + ep); 2]; [1; 1 - ep]].
Lemma fmt_int m e : (Z.abs m < 2 ^ 53)%Z -> (-1074 <= e)%Z -> fmt64 (IZR m * bpow radix2 e).
Proof.
  intros M E. apply generic_format_FLT. exists (Float radix2 m e); [reflexivity | exact M | exact E].
Qed.
Lemma thin_doubles : forall q x, In q thin -> In x q -> fmt64 x.
Proof.
  assert (Z0 : fmt64 0) by apply generic_format_0.
  assert (F1 : fmt64 1) by (replace 1 with (IZR 1 * bpow radix2 0) by (cbn; lra); apply fmt_int; lia).
  assert (F2 : fmt64 2) by (replace 2 with (IZR 2 * bpow radix2 0) by (cbn; lra); apply fmt_int; lia).
  assert (F3 : fmt64 (2 * (1 + ep))).
  { replace (2 * (1 + ep)) with (IZR 4503599627370497 * bpow radix2 (-51)) by (change (bpow radix2 (-51)) with (/ 2251799813685248); unfold ep; lra). apply fmt_int; lia. }
  assert (F4 : fmt64 (1 - ep)).
  { replace (1 - ep) with (IZR 4503599627370495 * bpow radix2 (-52)) by (change (bpow radix2 (-52)) with (/ 4503599627370496); unfold ep; lra). apply fmt_int; lia. }
  unfold thin. intros q x [<- | [<- | [<- | []]]] [<- | [<- | []]]; assumption.
Qed.
Lemma rnd_fmt x : fmt64 x -> rnd64 x = x.
Proof. intro F. apply round_generic; [typeclasses eauto | exact F]. Qed.
Lemma near_two x : 2 - / 18014398509481984 <= x <= 2 -> rnd64 x = 2.
Proof.
  assert (F2 : fmt64 2) by (replace 2 with (IZR 2 * bpow radix2 0) by (cbn; lra); apply fmt_int; lia).
  intros [A B]. apply Rle_antisym; [apply Rle_trans with (rnd64 2); [apply rnd64_le; exact B | rewrite (rnd_fmt 2 F2); lra]|].
  unfold rnd64. apply round_N_ge_midp; [apply FLT_exp_valid; unfold Prec_gt_0; lia | exact F2 |].
  replace (pred radix2 (FLT_exp (-1074) 53) 2) with (bpow radix2 1 - bpow radix2 (FLT_exp (-1074) 53 1)) by (rewrite <- pred_bpow; reflexivity). change (FLT_exp (-1074) 53 1) with (-52)%Z. change (bpow radix2 1) with 2. change (bpow radix2 (-52)) with (/ 4503599627370496).
  lra.
Qed.
Lemma thin_width : 0 < snap_width ptol0 thin <= / 2 ^ 41.
Proof.
  assert (F3 : fmt64 (2 * (1 + ep))) by (apply (thin_doubles [2 * (1 + ep); 2]); cbn; tauto).
  assert (F2 : fmt64 2) by (apply (thin_doubles [2 * (1 + ep); 2]); cbn; tauto).
  assert (EP : ep = / 4503599627370496) by reflexivity.
  unfold snap_width, thin, column. cbn [nth length seq map].
  replace (max_list [0; 2 * (1 + ep); 1]) with (2 * (1 + ep)) by (cbn; unfold Rmax; repeat (destruct (Rle_dec _ _); try lra)).
  replace (min_list [0; 2 * (1 + ep); 1]) with 0 by (cbn; unfold Rmin; repeat (destruct (Rle_dec _ _); try lra)).
  replace (max_list [0; 2; 1 - ep]) with 2 by (cbn; unfold Rmax; repeat (destruct (Rle_dec _ _); try lra)).
  replace (min_list [0; 2; 1 - ep]) with 0 by (cbn; unfold Rmin; repeat (destruct (Rle_dec _ _); try lra)).
  rewrite !Rminus_0_r, (rnd_fmt _ F2), (rnd_fmt _ F3).
  replace (max_list [2 * (1 + ep); 2]) with (2 * (1 + ep)) by (cbn; unfold Rmax; destruct (Rle_dec _ _); lra).
  replace (/ 2 ^ 41) with (bpow radix2 (-41)) by (change (bpow radix2 (-41)) with (/ 2199023255552); f_equal; ring).
  split; [apply Rlt_le_trans with (bpow radix2 (-50)); [apply bpow_gt_0|]|]; rewrite <- fmt_pow2 by lia; apply rnd64_le; unfold ptol0; rewrite EP.
  - change (bpow radix2 (-50)) with (/ 1125899906842624). lra.
  - change (bpow radix2 (-41)) with (/ 2199023255552). lra.
Qed.
Lemma apart s x y q q' c : 0 < s <= / 2 ^ 41 -> Rabs x <= 4 -> Rabs y <= 4 -> / 2 ^ 40 < Rabs (x - y) -> length q = length q' -> (c < length q)%nat ->
  nth c q 0 = x -> nth c q' 0 = y -> snap_key s q <> snap_key s q'.
Proof.
  intros S X Y D L C EX EY E. apply (snap_key_coord s q q' c) in E; [| exact C | exact L]. rewrite EX, EY in E. apply snap_close in E; [| lra].
  assert (/ 2 ^ 1073 <= / 2 ^ 60) by (apply Rinv_le_contravar; [apply pow_lt; lra | apply Rle_pow; [lra | lia]]). lra.
Qed.
(** such a thin triangle may stay clockwise: the computed area of this one is 0, the exact area is negative *)
Theorem C100_clockwise_refuted : exists uniqK uniqR p t, uniq_ok uniqK /\ uniq_ok uniqR /\
  (forall q x, In q p -> In x q -> fmt64 x) /\ (forall q, In q p -> length q = 2%nat) /\ (forall r, In r t -> length r = 3%nat) /\
  exists p' t' jx r, fix_mesh_all64 uniqK uniqR ptol0 p t false true = Ok (p', t', jx) /\ In r t' /\ simp_vol (map (fun v => nth v p' []) r) < 0.
Proof.
  exists (nodup key_dec), (nodup row_dec), thin, [[0;1;2]%nat]. do 2 (split; [apply nodup_uniq_ok|]). split; [exact thin_doubles|].
  split; [unfold thin; intros q [<- | [<- | [<- | []]]]; reflexivity|]. split; [intros r [<- | []]; reflexivity|].
  exists thin, [[0;1;2]%nat], [0;1;2]%nat, [0;1;2]%nat. split; [| split; [left; reflexivity|]].
  - unfold fix_mesh_all64, fix_mesh64. pose proof thin_width as W. set (w := snap_width ptol0 thin) in *. clearbody w. unfold thin at 1.
    assert (EP : ep = / 4503599627370496) by reflexivity.
    rewrite three_fix.
    2:{ apply (apart w 0 2 _ _ 1); try reflexivity; try exact W; try (cbn; lia); apply Rabs_le || (rewrite <- Rabs_Ropp, Rabs_right); lra. }
    2:{ apply (apart w 0 1 _ _ 0); try reflexivity; try exact W; try (cbn; lia); apply Rabs_le || (rewrite <- Rabs_Ropp, Rabs_right); lra. }
    2:{ apply (apart w 2 (1 - ep) _ _ 1); try reflexivity; try exact W; try (cbn; lia); apply Rabs_le || (rewrite Rabs_right); lra. }
    cbn [rbind map]. fold thin. unfold orient64. cbn [map thin nth].
    replace (simp_vol64 _) with 0; [rewrite (proj2 (Rltb_false 0 0)) by lra; reflexivity|].
    unfold simp_vol64, det64. rewrite !Rminus_0_r. assert (F : forall q x, In q thin -> In x q -> rnd64 x = x) by (intros q x A B; apply rnd_fmt, (thin_doubles q x A B)).
    rewrite (F [2 * (1 + ep); 2] (2 * (1 + ep))), (F [2 * (1 + ep); 2] 2), (F [1; 1 - ep] 1), (F [1; 1 - ep] (1 - ep)) by (cbn; tauto).
    rewrite (near_two (2 * (1 + ep) * (1 - ep))), (near_two (2 * 1)) by (rewrite ?EP; lra). rewrite Rminus_diag_eq, rnd64_0 by reflexivity. unfold Rdiv. rewrite Rmult_0_l, rnd64_0. reflexivity.
  - cbn [map thin nth simp_vol]. unfold ep. lra.
Qed.
Print Assumptions C100_clockwise_refuted.
(** a mesh with a clearly clockwise triangle, and its orientation *)
Example C100_case : (forall q x, In q [[0; 0]; [0; 1]; [1; 0]] -> In x q -> fmt64 x) /\ simp_vol64 [[0; 0]; [0; 1]; [1; 0]] < 0 /\
  orient64 [[0; 0]; [0; 1]; [1; 0]] [0;1;2]%nat = [1;0;2]%nat.
Proof.
  assert (Z0 : fmt64 0) by apply generic_format_0.
  assert (F1 : fmt64 1) by (replace 1 with (IZR 1 * bpow radix2 0) by (cbn; lra); apply fmt_int; lia).
  assert (V : simp_vol64 [[0; 0]; [0; 1]; [1; 0]] < 0).
  { apply (C100_area [[0; 0]; [0; 1]; [1; 0]] 1 1); [reflexivity | intros a [<- | [<- | [<- | []]]]; reflexivity | | |].
    - intros a x [<- | [<- | [<- | []]]] [<- | [<- | []]]; assumption.
    - intros a b [<- | [<- | [<- | []]]] [<- | [<- | [<- | []]]]; cbn [nth]; split; apply Rabs_le; lra.
    - assert (/ 2 ^ 1073 <= / 2 ^ 60) by (apply Rinv_le_contravar; [apply pow_lt; lra | apply Rle_pow; [lra | lia]]). cbn [simp_vol]. lra. }
  split; [intros q x [<- | [<- | [<- | []]]] [<- | [<- | []]]; assumption|]. split; [exact V|].
  unfold orient64. cbn [map nth]. rewrite (proj2 (Rltb_true _ _) V). reflexivity.
Qed.
