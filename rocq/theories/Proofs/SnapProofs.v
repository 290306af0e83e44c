(** Which vertices fix_mesh merges in binary64. *)
From Coq Require Import List ZArith Reals Bool Arith Lia Lra.
From Flocq Require Import Core Relative.
From Verif Require Import Model.Base Model.FastHJ Model.Mesh Model.Blocker Model.Snap Spec.Grid Proofs.ListAux Proofs.MeshAux Proofs.FixMeshProofs Proofs.GridIndex.
Import ListNotations.
Local Open Scope R_scope.

Definition fmt64 := generic_format radix2 (FLT_exp (-1074) 53).
Lemma err64 x : Rabs (rnd64 x - x) <= / 2 ^ 53 * Rabs x + bpow radix2 (-1075).
Proof.
  destruct (error_N_FLT radix2 (-1074) 53 ltac:(lia) (fun n => negb (Z.even n)) x) as (e & h & E & H & _ & Q). unfold rnd64.
  change (round radix2 (FLT_exp (-1074) 53) (Znearest (fun n => negb (Z.even n))) x) with (round radix2 (FLT_exp (-1074) 53) ZnearestE x) in Q.
  rewrite Q. replace (x * (1 + e) + h - x) with (e * x + h) by ring. eapply Rle_trans; [apply Rabs_triang|]. rewrite Rabs_mult.
  assert (A : Rabs e <= / 2 ^ 53) by (eapply Rle_trans; [exact E|]; change (bpow radix2 (-53 + 1)) with (/ IZR (Z.pow_pos 2 52)); cbn; lra).
  assert (B : Rabs h <= bpow radix2 (-1075)).
  { eapply Rle_trans; [exact H|]. change (-1074)%Z with (1 + -1075)%Z. rewrite bpow_plus. change (bpow radix2 1) with 2. lra. }
  pose proof (Rabs_pos x). pose proof (Rmult_le_compat_r (Rabs x) _ _ H0 A). lra.
Qed.
Lemma rnd64_0 : rnd64 0 = 0.
Proof. apply round_0. typeclasses eauto. Qed.
Lemma rnd64_le x y : x <= y -> rnd64 x <= rnd64 y.
Proof. apply rnd64_is_rounding. Qed.
Lemma rnd64_pos x : 0 <= x -> 0 <= rnd64 x.
Proof. intro H. rewrite <- rnd64_0. apply rnd64_le. exact H. Qed.
Lemma rnd64_neg x : x <= 0 -> rnd64 x <= 0.
Proof. intro H. rewrite <- rnd64_0. apply rnd64_le. exact H. Qed.
(** doubles are multiples of the smallest one *)
Lemma bytes_integer x : IZR (Ztrunc (rnd64 x * bpow radix2 1074)) = rnd64 x * bpow radix2 1074.
Proof.
  assert (F : fmt64 (rnd64 x)) by apply rnd64_is_rounding. unfold fmt64, generic_format in F.
  set (m := Ztrunc (scaled_mantissa radix2 (FLT_exp (-1074) 53) (rnd64 x))) in *. set (e := cexp radix2 (FLT_exp (-1074) 53) (rnd64 x)) in *.
  assert (E : (0 <= e + 1074)%Z). { unfold e, cexp, FLT_exp. lia. }
  rewrite F. unfold F2R. cbn [Fnum Fexp]. rewrite Rmult_assoc, <- bpow_plus.
  rewrite <- (IZR_Zpower radix2 (e + 1074) E), <- mult_IZR, Ztrunc_IZR. reflexivity.
Qed.
Lemma bytes_inj x y a b : bytes64 (rnd64 x) a = bytes64 (rnd64 y) b -> rnd64 x = rnd64 y /\ a = b.
Proof.
  intro H. injection H as E F. split; [| destruct a, b; congruence || discriminate].
  apply (f_equal IZR) in E. rewrite !bytes_integer in E. apply Rmult_eq_reg_r in E; [exact E|]. apply Rgt_not_eq, bpow_gt_0.
Qed.
Lemma snap1_inj s x y : snap1 s x = snap1 s y ->
  rnd64 (IZR (ZnearestE (rnd64 (x / s))) * s) = rnd64 (IZR (ZnearestE (rnd64 (y / s))) * s) /\
  (rnd64 (IZR (ZnearestE (rnd64 (x / s))) * s) = 0 -> Rltb x 0 = Rltb y 0).
Proof.
  intro H. apply bytes_inj in H. destruct H as [E F]. split; [exact E|]. intro Z. rewrite <- E in F. rewrite Z in F.
  unfold Reqb in F. destruct (Req_EM_T 0 0); [exact F | congruence].
Qed.
Lemma app_split {A} : forall (a b l m : list A), length a = length b -> a ++ l = b ++ m -> a = b /\ l = m.
Proof.
  induction a as [|x a IH]; intros [|y b] l m L H; cbn [length] in L; try lia; [split; [reflexivity | exact H]|].
  cbn [app] in H. injection H as -> H. destruct (IH b l m ltac:(lia) H) as [-> ->]. split; reflexivity.
Qed.
Lemma snap_key_coord s : forall q q' c, snap_key s q = snap_key s q' -> (c < length q)%nat -> length q = length q' ->
  snap1 s (nth c q 0) = snap1 s (nth c q' 0).
Proof.
  induction q as [|x q IH]; intros [|y q'] c H C L; cbn [length] in *; try lia. change (snap1 s x ++ snap_key s q = snap1 s y ++ snap_key s q') in H. apply app_split in H; [| reflexivity]. destruct H as [H1 H3].
  destruct c as [|c]; cbn [nth]; [exact H1 | apply IH; [exact H3 | lia | lia]].
Qed.
Lemma snap_key_ext s : forall q q', length q = length q' -> (forall c, (c < length q)%nat -> snap1 s (nth c q 0) = snap1 s (nth c q' 0)) -> snap_key s q = snap_key s q'.
Proof.
  induction q as [|x q IH]; intros [|y q'] L H; cbn [length] in *; try lia; [reflexivity|].
  change (snap1 s x ++ snap_key s q = snap1 s y ++ snap_key s q'). rewrite (IH q'); [| lia | intros c C; apply (H (S c)); lia].
  f_equal. apply (H O). lia.
Qed.
(** the sign of a snapped coordinate *)
Lemma nearest_mono a b : a <= b -> (ZnearestE a <= ZnearestE b)%Z.
Proof. apply Zrnd_le. typeclasses eauto. Qed.
Lemma nearest_0 : ZnearestE 0 = 0%Z.
Proof. apply Znearest_imp. rewrite Rminus_0_r, Rabs_R0. lra. Qed.
Lemma nearest_pos a : 0 <= a -> 0 <= IZR (ZnearestE a).
Proof. intro H. apply (IZR_le 0). rewrite <- nearest_0. apply nearest_mono. exact H. Qed.
Lemma nearest_neg a : a <= 0 -> IZR (ZnearestE a) <= 0.
Proof. intro H. apply (IZR_le _ 0). rewrite <- nearest_0. apply nearest_mono. exact H. Qed.
Lemma snap_signs s x y : 0 < s -> x < 0 -> 0 <= y -> snap1 s x <> snap1 s y.
Proof.
  intros P X Y H. apply snap1_inj in H. destruct H as [E Z].
  assert (I : 0 < / s) by (apply Rinv_0_lt_compat; exact P).
  assert (A : rnd64 (IZR (ZnearestE (rnd64 (x / s))) * s) <= 0).
  { apply rnd64_neg. assert (IZR (ZnearestE (rnd64 (x / s))) <= 0); [apply nearest_neg, rnd64_neg; unfold Rdiv; nra | nra]. }
  assert (B : 0 <= rnd64 (IZR (ZnearestE (rnd64 (y / s))) * s)).
  { apply rnd64_pos. assert (0 <= IZR (ZnearestE (rnd64 (y / s)))); [apply nearest_pos, rnd64_pos; unfold Rdiv; nra | nra]. }
  specialize (Z ltac:(lra)). rewrite (proj2 (Rltb_true x 0)) in Z by exact X. rewrite (proj2 (Rltb_false y 0)) in Z by lra. discriminate.
Qed.
(** distance to the snapped coordinate *)
Lemma snap_dist s x : 0 < s -> Rabs (x - rnd64 (IZR (ZnearestE (rnd64 (x / s))) * s)) <= (1 + / 2 ^ 50) * (s / 2) + / 2 ^ 51 * Rabs x + / 2 ^ 1074.
Proof.
  intros P. set (a := rnd64 (x / s)). set (N := IZR (ZnearestE a)). set (u := / 2 ^ 53). set (h := bpow radix2 (-1075)).
  assert (Hh : 0 < h <= / 2 ^ 1075).
  { split; [apply bpow_gt_0|]. unfold h. rewrite bpow_opp with (e := 1075%Z). apply Req_le. f_equal. rewrite <- (IZR_Zpower radix2 1075) by lia. rewrite pow_IZR. reflexivity. }
  assert (H1 : Rabs (x - a * s) <= u * Rabs x + h * s).
  { pose proof (err64 (x / s)) as E. fold a u h in E. replace (x - a * s) with (- (a - x / s) * s) by (field; lra).
    rewrite Rabs_mult, Rabs_Ropp, (Rabs_right s) by lra. assert (Rabs (x / s) = Rabs x / s) as Q by (unfold Rdiv; rewrite Rabs_mult, (Rabs_right (/ s)); [reflexivity | apply Rle_ge, Rlt_le, Rinv_0_lt_compat; exact P]).
    rewrite Q in E. apply Rmult_le_compat_r with (r := s) in E; [| lra]. replace ((u * (Rabs x / s) + h) * s) with (u * Rabs x + h * s) in E by (field; lra). exact E. }
  assert (H2 : Rabs (a * s - N * s) <= s / 2).
  { replace (a * s - N * s) with ((a - N) * s) by ring. rewrite Rabs_mult, (Rabs_right s) by lra. pose proof (Znearest_half (fun n => negb (Z.even n)) a) as E. fold N in E.
    apply Rmult_le_compat_r with (r := s) in E; [lra | lra]. }
  pose proof (err64 (N * s)) as H3. fold u h in H3.
  assert (H4 : Rabs (N * s) <= Rabs x + (u * Rabs x + h * s) + s / 2).
  { replace (N * s) with (x - (x - a * s) - (a * s - N * s)) by ring.
    eapply Rle_trans; [apply Rabs_triang|]. rewrite Rabs_Ropp. eapply Rle_trans; [apply Rplus_le_compat_r, Rabs_triang|]. rewrite Rabs_Ropp. lra. }
  replace (x - rnd64 (N * s)) with ((x - a * s) + (a * s - N * s) + - (rnd64 (N * s) - N * s)) by ring.
  eapply Rle_trans; [apply Rabs_triang|]. rewrite Rabs_Ropp. eapply Rle_trans; [apply Rplus_le_compat_r, Rabs_triang|].
  pose proof (Rabs_pos x) as X. assert (U : 0 < u <= / 2 ^ 53) by (unfold u; split; [apply Rinv_0_lt_compat, pow_lt; lra | lra]).
  assert (h <= / 2 ^ 60).
  { eapply Rle_trans; [apply Hh|]. apply Rinv_le_contravar; [apply pow_lt; lra|]. apply Rle_pow; [lra | lia]. }
  assert (h <= / 2 ^ 1074).
  { eapply Rle_trans; [apply Hh|]. apply Rinv_le_contravar; [apply pow_lt; lra|]. apply Rle_pow; [lra | lia]. }
  assert (u * Rabs (N * s) <= u * (Rabs x + (u * Rabs x + h * s) + s / 2)) as H5 by (apply Rmult_le_compat_l; lra).
  assert (E1 : u = / 9007199254740992) by (unfold u; f_equal; ring). assert (E2 : / 2 ^ 60 = / 1152921504606846976) by (f_equal; ring).
  assert (E3 : / 2 ^ 50 = / 1125899906842624) by (f_equal; ring). assert (E4 : / 2 ^ 51 = / 2251799813685248) by (f_equal; ring).
  rewrite E3, E4. rewrite E1 in *. rewrite E2 in *. assert (h * s <= / 1152921504606846976 * s) by (apply Rmult_le_compat_r; lra). lra.
Qed.
Lemma snap_close s x y : 0 < s -> snap1 s x = snap1 s y -> Rabs (x - y) <= (1 + / 2 ^ 50) * s + / 2 ^ 51 * (Rabs x + Rabs y) + / 2 ^ 1073.
Proof.
  intros P H. apply snap1_inj in H. destruct H as [E _]. pose proof (snap_dist s x P) as A. pose proof (snap_dist s y P) as B. rewrite <- E in B.
  set (v := rnd64 _) in *. replace (x - y) with ((x - v) + - (y - v)) by ring. eapply Rle_trans; [apply Rabs_triang|]. rewrite Rabs_Ropp.
  assert (/ 2 ^ 1073 = 2 * / 2 ^ 1074).
  { change (2 ^ 1074) with (2 * 2 ^ 1073). rewrite Rinv_mult. field. }
  lra.
Qed.
Lemma snap_same s x N : 0 < s -> (Z.abs N <= 2 ^ 50)%Z -> Rabs (x - IZR N * s) <= s / 4 -> ZnearestE (rnd64 (x / s)) = N.
Proof.
  intros P B H. apply Znearest_imp. set (d := x / s - IZR N).
  assert (D : Rabs d <= / 4).
  { unfold d. replace (x / s - IZR N) with ((x - IZR N * s) * / s) by (field; lra). rewrite Rabs_mult, (Rabs_right (/ s)) by (apply Rle_ge, Rlt_le, Rinv_0_lt_compat; exact P).
    apply Rmult_le_reg_r with s; [exact P|]. rewrite Rmult_assoc, Rinv_l, Rmult_1_r by lra. lra. }
  assert (M : Rabs (x / s) <= 1125899906842624 + / 4).
  { replace (x / s) with (IZR N + d) by (unfold d; ring). eapply Rle_trans; [apply Rabs_triang|]. apply Rplus_le_compat; [| exact D]. rewrite <- abs_IZR. apply IZR_le. exact B. }
  pose proof (err64 (x / s)) as E. assert (h : bpow radix2 (-1075) <= / 16).
  { change (/ 16) with (bpow radix2 (-4)). apply bpow_le. lia. }
  replace (rnd64 (x / s) - IZR N) with ((rnd64 (x / s) - x / s) + d) by (unfold d; ring). eapply Rle_lt_trans; [apply Rabs_triang|].
  assert (/ 2 ^ 53 = / 9007199254740992) as E1 by (f_equal; ring). rewrite E1 in E. lra.
Qed.
Lemma snap_merges s x y N : 0 < s -> (Z.abs N <= 2 ^ 50)%Z -> Rabs (x - IZR N * s) <= s / 4 -> Rabs (y - IZR N * s) <= s / 4 -> (x < 0 <-> y < 0) ->
  snap1 s x = snap1 s y.
Proof.
  intros P B X Y S. unfold snap1. rewrite (snap_same s x N P B X), (snap_same s y N P B Y). f_equal. f_equal.
  destruct (Rltb y 0) eqn:E; [apply Rltb_true in E; apply Rltb_true, S, E | apply Rltb_false in E; apply Rltb_false; apply Rnot_lt_le; intro L; apply (proj1 S) in L; lra].
Qed.

(** numbers of the merged vertices *)
Lemma jx_same uniqK uniqR k p t ori p' t' jx i j : uniq_ok uniqK -> uniq_ok uniqR ->
  fix_mesh uniqK uniqR k p t false ori = Ok (p', t', jx) -> (i < length p)%nat -> (j < length p)%nat ->
  (nth i jx O = nth j jx O <-> k (nth i p []) = k (nth j p [])).
Proof.
  intros HK HR H I J. pose proof (fix_mesh_valid _ _ _ _ _ _ _ _ H) as V.
  destruct (fix_mesh_jx uniqK uniqR k HK p t V ori p' t' jx H) as [L X]. destruct (X i I) as [Li Ki]. destruct (X j J) as [Lj Kj].
  split; [intro E; rewrite <- Ki, <- Kj, E; reflexivity|]. intro E. rewrite <- Ki, <- Kj in E.
  destruct (fix_mesh_clean uniqK uniqR k HK HR p t V false ori p' t' jx H) as [C _].
  assert (ND : NoDup (map k p')) by apply C.
  apply (proj1 (NoDup_nth (map k p') (k [])) ND); [rewrite map_length; exact Li | rewrite map_length; exact Lj |].
  rewrite !map_nth. exact E.
Qed.
