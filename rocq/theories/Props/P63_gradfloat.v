(** C109, C110 continued: sizes from the velocity gradient in the precision of the velocities, and the padded box in double precision. *)
From Coq Require Import List ZArith Reals Bool Arith Lia Lra.
From Flocq Require Import Core Relative.
From Verif Require Import Model.Base Model.FastHJ Model.Sizing Model.SizingFloat Spec.Grid Spec.Precision Proofs.ListAux Proofs.SizingArr Proofs.SizingMain Proofs.SizingMore
  Proofs.GridIndex Proofs.SnapProofs Proofs.SizingFloatProofs Props.P02_sizing Props.P45_float.
Import ListNotations.
Local Open Scope R_scope.

Lemma rd_err t x : Rabs (rd t x - x) <= ulp_of t * Rabs x + / 2 ^ 150.
Proof.
  destruct t; cbn [rd ulp_of].
  - destruct (error_N_FLT radix2 (-149) 24 ltac:(lia) (fun n => negb (Z.even n)) x) as (e & h & E & H & _ & Q). unfold rnd32.
    change (round radix2 (FLT_exp (-149) 24) (Znearest (fun n => negb (Z.even n))) x) with (round radix2 (FLT_exp (-149) 24) ZnearestE x) in Q.
    rewrite Q. replace (x * (1 + e) + h - x) with (e * x + h) by ring. eapply Rle_trans; [apply Rabs_triang|]. rewrite Rabs_mult.
    assert (A : Rabs e <= / 2 ^ 24) by (eapply Rle_trans; [exact E|]; change (bpow radix2 (-24 + 1)) with (/ IZR (Z.pow_pos 2 23)); cbn; lra).
    assert (B : Rabs h <= / 2 ^ 150).
    { eapply Rle_trans; [exact H|]. replace (/ 2 ^ 150) with (/ 2 * bpow radix2 (-149)); [lra|]. change (bpow radix2 (-149)) with (/ IZR (Z.pow_pos 2 149)). rewrite <- Rinv_mult. f_equal.
      change 150%nat with (S 149). rewrite <- tech_pow_Rmult. f_equal. rewrite pow_IZR. reflexivity. }
    pose proof (Rmult_le_compat_r (Rabs x) _ _ (Rabs_pos x) A). lra.
  - pose proof (err64 x) as E. eapply Rle_trans; [exact E|]. apply Rplus_le_compat_l.
    replace (/ 2 ^ 150) with (bpow radix2 (-150)); [apply bpow_le; lia|]. change (bpow radix2 (-150)) with (/ IZR (Z.pow_pos 2 150)). f_equal. rewrite pow_IZR. reflexivity.
Qed.
Lemma rd_one t : rd t 1 = 1.
Proof.
  apply rd_id. destruct t; cbn [number]; (apply generic_format_FLT; exists (Float radix2 1 0); [unfold F2R; cbn [Fnum Fexp]; change (bpow radix2 0) with 1; lra|cbn [Fnum]; reflexivity|cbn [Fexp]; lia]).
Qed.
Lemma tenth t : (1 - 201 / 100 * ulp_of t) / 10 <= rd t (rnd64 (1 / 10)) <= (1 + 201 / 100 * ulp_of t) / 10.
Proof.
  pose proof (ulp_small t) as U. assert (T : / 2 ^ 126 <= 1 / 20) by (apply (tiny_le _ 20); [lia|]; replace (2 ^ 20) with 1048576 by ring; lra).
  destruct (rd_factor F64 t (1 / 10) (or_intror eq_refl) ltac:(lra)) as (f & F & E). change (rd F64 (1 / 10)) with (rnd64 (1 / 10)) in E. rewrite E.
  assert (U' : 0 < ulp_of t < / 1000000) by (replace (2 ^ 24) with 16777216 in U by ring; lra).
  destruct (rd_factor t t (f * (1 / 10)) (or_introl eq_refl) ltac:(lra)) as (g & G & E2). rewrite E2.
  pose proof (factor2 (ulp_of t) g f U G F). lra.
Qed.

Section G.
Variable t : dtype.
Let uu := ulp_of t.
Lemma uu_small : 0 < uu < / 1000000.
Proof. pose proof (ulp_small t) as U. replace (2 ^ 24) with 16777216 in U by ring. unfold uu. lra. Qed.

Lemma size_upper grad v : usual grad -> 0 <= v -> rd t (rd t grad / rd t (v + rd t (rnd64 (1 / 10)))) <= (1 + 6 * uu) * (10 * grad).
Proof.
  intros [GL GU] V. pose proof uu_small as U. pose proof (tenth t) as [C1 C2]. fold uu in C1, C2. set (c := rd t (rnd64 (1 / 10))) in *.
  assert (E20 : / 2 ^ 20 = / 1048576) by (f_equal; ring). rewrite E20 in GL.
  assert (T : / 2 ^ 126 <= / 1048576) by (rewrite <- E20; apply (tiny_le _ 20); [lia|lra]).
  pose proof (rd_in t t grad (or_introl eq_refl) ltac:(lra)) as [_ R1]. fold uu in R1.
  assert (R0 : 0 <= rd t grad) by (apply rd_pos; lra).
  pose proof (rd_in t t (v + c) (or_introl eq_refl) ltac:(lra)) as [R2 _]. fold uu in R2.
  set (X := rd t (v + c)) in *. assert (XL : (1 - uu) * ((1 - 201 / 100 * uu) / 10) <= X).
  { eapply Rle_trans; [|exact R2]. apply Rmult_le_compat_l; lra. }
  assert (XP : 9 / 100 < X) by (eapply Rlt_le_trans; [|exact XL]; nra).
  assert (Q : rd t grad / X <= (1 + 401 / 100 * uu + 3 / 100 * uu) * (10 * grad)).
  { apply (Rmult_le_reg_r X); [lra|]. replace (rd t grad / X * X) with (rd t grad) by (field; lra). eapply Rle_trans; [exact R1|].
    assert (1 + uu <= (1 + 404 / 100 * uu) * 10 * X) as Z. { apply Rle_trans with ((1 + 404 / 100 * uu) * 10 * ((1 - uu) * ((1 - 201 / 100 * uu) / 10))); [nra|]. apply Rmult_le_compat_l; [lra|exact XL]. }
    replace ((1 + 401 / 100 * uu + 3 / 100 * uu) * (10 * grad) * X) with (((1 + 404 / 100 * uu) * 10 * X) * grad) by lra. apply Rmult_le_compat_r; lra. }
  eapply Rle_trans; [apply rd_le, Q|]. set (Y := (1 + 401 / 100 * uu + 3 / 100 * uu) * (10 * grad)) in *.
  assert (YL : 10 * grad <= Y) by (unfold Y; nra).
  pose proof (rd_in t t Y (or_introl eq_refl) ltac:(lra)) as [_ R3]. fold uu in R3. eapply Rle_trans; [exact R3|]. unfold Y. rewrite <- Rmult_assoc. apply Rmult_le_compat_r; [lra|]. nra.
Qed.
Lemma size_lower grad v b : usual grad -> 0 <= v <= b -> b <= 1 -> (1 - 6 * uu) * (grad / (b + 1 / 10)) <= rd t (rd t grad / rd t (v + rd t (rnd64 (1 / 10)))).
Proof.
  intros [GL GU] V B1. pose proof uu_small as U. pose proof (tenth t) as [C1 C2]. fold uu in C1, C2. set (c := rd t (rnd64 (1 / 10))) in *.
  assert (E20 : / 2 ^ 20 = / 1048576) by (f_equal; ring). rewrite E20 in GL.
  assert (T : / 2 ^ 126 <= / 134217728). { replace (/ 134217728) with (/ 2 ^ 27) by (f_equal; ring). apply (tiny_le _ 27); [lia|lra]. }
  pose proof (rd_in t t grad (or_introl eq_refl) ltac:(lra)) as [R1 _]. fold uu in R1.
  pose proof (rd_in t t (v + c) (or_introl eq_refl) ltac:(lra)) as [R2' R2]. fold uu in R2, R2'.
  set (X := rd t (v + c)) in *. set (D := b + 1 / 10). assert (DB : 1 / 10 <= D <= 11 / 10) by (unfold D; lra).
  assert (XU : X <= (1 + uu) * ((1 + 201 / 100 * uu) * D)).
  { eapply Rle_trans; [exact R2|]. apply Rmult_le_compat_l; [lra|]. unfold D. assert (0 <= uu * b) by (apply Rmult_le_pos; lra). lra. }
  assert (XP : 9 / 100 < X). { eapply Rlt_le_trans; [|exact R2']. nra. }
  assert (Q : (1 - 405 / 100 * uu) * (grad / D) <= rd t grad / X).
  { apply (Rmult_le_reg_r X); [lra|]. replace (rd t grad / X * X) with (rd t grad) by (field; lra). eapply Rle_trans; [|exact R1].
    assert (P1 : (1 - 405 / 100 * uu) * X <= (1 - uu) * D).
    { eapply Rle_trans; [apply Rmult_le_compat_l; [lra|exact XU]|]. rewrite <- !Rmult_assoc. apply Rmult_le_compat_r; [lra|]. nra. }
    replace ((1 - 405 / 100 * uu) * (grad / D) * X) with (((1 - 405 / 100 * uu) * X) * (grad / D)) by ring.
    replace ((1 - uu) * grad) with (((1 - uu) * D) * (grad / D)) by (field; lra). apply Rmult_le_compat_r; [|exact P1].
    apply Rmult_le_pos; [lra|]. left. apply Rinv_0_lt_compat. lra. }
  assert (GD : grad / D >= / 2097152). { apply Rle_ge. apply (Rmult_le_reg_r D); [lra|]. replace (grad / D * D) with grad by (field; lra). lra. }
  assert (QP : / 134217728 <= (1 - 405 / 100 * uu) * (grad / D)) by nra.
  eapply Rle_trans; [|apply rd_le, Q]. set (Y := (1 - 405 / 100 * uu) * (grad / D)) in *.
  pose proof (rd_in t t Y (or_introl eq_refl) ltac:(lra)) as [R3 _]. fold uu in R3. eapply Rle_trans; [|exact R3]. unfold Y. rewrite <- Rmult_assoc. apply Rmult_le_compat_r; [lra|]. nra.
Qed.
End G.

(** [sq]: the squared velocities as stored; [w]: the windowed variance as computed.  Whatever the rounding of the filter: no size from the gradient is above ten
    times grad (up to 6u); if no computed variance is negative none is below grad/1.1; and the size is ten times grad where the variance is least. *)
Theorem C109_gradient_sizes : forall ufilter t vp grad s, (forall x, shape_eq (ufilter x) x) -> positive_shape vp -> usual grad ->
  gradient_sizing_f ufilter t vp grad = SzOk s ->
  let u := ulp_of t in let tiny := / 2 ^ 150 in
  exists sq w, shape_eq sq vp /\ shape_eq w vp /\ shape_eq s vp /\ amax w <> 0 /\
    (forall i j k, Rabs (av sq i j k - av vp i j k ^ 2) <= u * av vp i j k ^ 2 + tiny) /\
    (forall i j k, let m := av (ufilter vp) i j k in let v := av (ufilter sq) i j k - m ^ 2 in
       Rabs (av w i j k - v) <= u * Rabs v + 2 * u * m ^ 2 + 3 * tiny) /\
    (forall i j k, inr vp i j k -> av s i j k <= (1 + 6 * u) * (10 * grad)) /\
    ((forall i j k, inr vp i j k -> 0 <= av w i j k) -> forall i j k, inr vp i j k -> (1 - 6 * u) * (grad / (11 / 10)) <= av s i j k) /\
    (0 < amax w -> forall i j k, inr vp i j k -> av w i j k = amin w -> (1 - 6 * u) * (10 * grad) <= av s i j k).
Proof.
  intros uf t vp grad s SH PS GU H u tiny. pose proof GU as [GL _].
  assert (GP : 0 < grad) by (eapply Rlt_le_trans; [|exact GL]; apply Rinv_0_lt_compat, pow_lt; lra).
  unfold gradient_sizing_f in H. rewrite (proj2 (Reqb_false grad 0)) in H by lra. rewrite (proj2 (Rltb_false grad 0)) in H by lra.
  set (sq := amap (fun v => rd t (v * v)) vp). set (w := window_variance_f uf t vp) in *. exists sq, w.
  assert (SW : shape_eq w vp). { unfold w, window_variance_f. apply shape_eq_trans with (uf sq); [repeat split|]. apply shape_eq_trans with sq; [apply SH|repeat split]. }
  unfold gradient_of_variance_f in H. destruct (Reqb (amax w) 0) eqn:MX; [discriminate|]. apply Reqb_false in MX. injection H as <-.
  set (w1 := amap (fun v => rd t (v / amax w)) w) in *.
  assert (IW : forall i j k, inr vp i j k -> inr w1 i j k). { intros i j k I. apply (shape_eq_inr vp w1); [|exact I]. apply shape_eq_sym, shape_eq_trans with w; [repeat split|exact SW]. }
  assert (PW : positive_shape w1). { destruct SW as (_ & S0 & S1 & S2). unfold positive_shape in *. change (n0 w1) with (n0 w). change (n1 w1) with (n1 w). change (n2 w1) with (n2 w). rewrite S0, S1, S2. exact PS. }
  split; [repeat split|]. split; [exact SW|]. split; [apply shape_eq_trans with w; [repeat split|exact SW]|]. split; [exact MX|].
  pose proof (ulp_small t) as US. fold u in US.
  split; [intros i j k; unfold sq; cbn [amap av]; replace (av vp i j k ^ 2) with (av vp i j k * av vp i j k) by ring; pose proof (rd_err t (av vp i j k * av vp i j k)) as E;
          rewrite (Rabs_pos_eq (av vp i j k * av vp i j k)) in E by apply Rle_0_sqr; exact E|].
  split.
  { intros i j k m v. unfold w, window_variance_f. cbn [amap2 av]. fold sq. fold m. set (S := av (uf sq) i j k) in *.
    pose proof (rd_err t (m * m)) as E1. rewrite (Rabs_pos_eq (m * m)) in E1 by apply Rle_0_sqr. fold u tiny in E1. set (q := rd t (m * m)) in *.
    pose proof (rd_err t (S - q)) as E2. fold u tiny in E2.
    assert (TP : 0 < tiny) by (apply Rinv_0_lt_compat, pow_lt; lra). assert (M0 : 0 <= m * m) by apply Rle_0_sqr.
    assert (D : Rabs (S - q) <= Rabs v + (u * (m * m) + tiny)).
    { unfold v. replace (S - q) with ((S - m ^ 2) + - (q - m * m)) by ring. eapply Rle_trans; [apply Rabs_triang|]. rewrite Rabs_Ropp. lra. }
    replace (rd t (S - q) - v) with ((rd t (S - q) - (S - q)) + - (q - m * m)) by (unfold v; ring). eapply Rle_trans; [apply Rabs_triang|]. rewrite Rabs_Ropp.
    assert (u * Rabs (S - q) <= u * (Rabs v + (u * (m * m) + tiny))) as D2 by (apply Rmult_le_compat_l; lra).
    replace (2 ^ 24) with 16777216 in US by ring.
    assert (u * (u * (m * m)) <= u * (m * m)). { apply Rmult_le_compat_l; [lra|]. rewrite <- (Rmult_1_l (m * m)) at 2. apply Rmult_le_compat_r; lra. }
    assert (u * tiny <= 1 * tiny) by (apply Rmult_le_compat_r; lra). replace (m ^ 2) with (m * m) by ring. lra. }
  assert (V0 : forall i j k, inr vp i j k -> 0 <= rd t (av w1 i j k - amin w1)).
  { intros i j k I. apply rd_pos. pose proof (amin_le w1 i j k (IW i j k I)). lra. }
  split; [intros i j k I; cbn [amap av]; apply size_upper; [exact GU|apply (V0 i j k I)]|].
  assert (W1U : 0 < amax w -> forall i j k, inr vp i j k -> av w1 i j k <= 1).
  { intros P i j k I. unfold w1. cbn [amap av]. rewrite <- (rd_one t). apply rd_le. pose proof (amax_ge w i j k ltac:(apply (shape_eq_inr vp w _ _ _ (shape_eq_sym _ _ SW)), I)).
    apply (Rmult_le_reg_r (amax w)); [exact P|]. unfold Rdiv. rewrite Rmult_assoc, Rinv_l, Rmult_1_r, Rmult_1_l by lra. exact H. }
  split.
  - intros NN i j k I. cbn [amap av]. replace (grad / (11 / 10)) with (grad / (1 + 1 / 10)) by (f_equal; lra). apply size_lower; [exact GU| |lra]. split; [apply (V0 i j k I)|].
    assert (P : 0 < amax w). { destruct (Rle_lt_or_eq_dec 0 (amax w)) as [L|E]; [|exact L|congruence]. eapply Rle_trans; [apply (NN i j k I)|]. apply amax_ge, (shape_eq_inr vp w _ _ _ (shape_eq_sym _ _ SW)), I. }
    rewrite <- (rd_one t). apply rd_le. pose proof (W1U P i j k I) as W1.
    assert (0 <= amin w1). { destruct (amin_attained w1 PW) as (a & b & c & Iw & <-). unfold w1. cbn [amap av]. apply rd_pos. apply Rmult_le_pos; [|left; apply Rinv_0_lt_compat, P].
      apply NN. apply (shape_eq_inr w1 vp); [|exact Iw]. apply shape_eq_trans with w; [repeat split|exact SW]. }
    change (rd t (av w i j k / amax w)) with (av w1 i j k). lra.
  - intros P i j k I MI. cbn [amap av].
    assert (E : av w1 i j k = amin w1).
    { apply Rle_antisym; [|apply amin_le, IW, I]. destruct (amin_attained w1 PW) as (a & b & c & Iw & <-). unfold w1. cbn [amap av]. apply rd_le. rewrite MI.
      unfold Rdiv. apply Rmult_le_compat_r; [left; apply Rinv_0_lt_compat, P|]. apply amin_le. exact Iw. }
    change (rd t (av w i j k / amax w)) with (av w1 i j k). rewrite E. replace (amin w1 - amin w1) with 0 by ring. rewrite rd_0.
    pose proof (size_lower t grad 0 0 GU ltac:(lra) ltac:(lra)) as SL. fold u in SL. replace (grad / (0 + 1 / 10)) with (10 * grad) in SL by (field; lra). exact SL.
Qed.
Print Assumptions C109_gradient_sizes.

(** ---- C110: the box ---- *)
Theorem C110_box : forall ufilter ramp t o b vp a4 vp4 b4, get_sizing_f ufilter ramp t o b vp = SzOk (a4, vp4, b4) ->
  (o_domain_pad o = 0 -> b4 = b) /\
  (0 < o_domain_pad o -> exists vp1, prepare_vp_f t o vp = SzOk vp1 /\
     length b4 = (if adim vp1 =? 3 then 6 else 4)%nat /\ nth 1 b4 0 = nth 1 b 0 /\ nth 0 b4 0 = rnd64 (nth 0 b 0 - o_domain_pad o) /\
     forall i, (0 < i)%nat -> (2 * i + 1 < length b4)%nat ->
       nth (2 * i) b4 0 = rnd64 (nth (2 * i) b 0 - o_domain_pad o) /\ nth (2 * i + 1) b4 0 = rnd64 (nth (2 * i + 1) b 0 + o_domain_pad o)).
Proof.
  intros uf ramp t o b vp a4 vp4 b4 H. unfold get_sizing_f in H.
  destruct (prepare_vp_f t o vp) as [vp1| |]; try discriminate. cbn [sbind] in H. destruct (bbox_dim b); [|discriminate].
  destruct (initial_size_f _ _ _ _) as [a0| |]; try discriminate. cbn [sbind] in H.
  destruct (courant_f _ _ _ _ _ _ _) as [a2| |]; try discriminate. cbn [sbind] in H.
  destruct (gradation_f _ _ _) as [a3| |]; try discriminate. cbn [sbind] in H. unfold domain_pad_f in H.
  destruct (Rltb (o_domain_pad o) 0) eqn:L; [discriminate|]. apply Rltb_false in L. unfold Rgtb in H.
  destruct (Rltb 0 (o_domain_pad o)) eqn:G.
  - apply Rltb_true in G. split; [lra|]. intros _. exists vp1. split; [reflexivity|]. destruct (pad_counts_f vp1 b (o_domain_pad o)) as [[p0 p1] p2].
    destruct (pad_it_f _ _ _ _ _ _ a3) as [a'| |]; try discriminate. cbn [sbind] in H. destruct (pad_it_f _ _ _ _ _ _ vp1) as [vp'| |]; try discriminate. cbn [sbind] in H.
    injection H as _ _ <-. unfold padded_bbox_f. destruct (adim vp1 =? 3)%nat; cbn [length nth]; (split; [reflexivity|]; split; [reflexivity|]; split; [reflexivity|]);
      intros i I0 I1; (destruct i as [|[|[|i]]]; [lia| | |]; try lia; split; reflexivity).
  - apply Rltb_false in G. split; [|lra]. intros _. injection H as _ _ <-. reflexivity.
Qed.
Print Assumptions C110_box.

(** two rows of velocities and a filter that averages them: variance 562500 everywhere, so the call succeeds in either precision *)
Definition row_mean (x : garr) : garr := mkArr (adim x) (n0 x) (n1 x) (n2 x) (fun _ _ _ => (av x 0%nat 0%nat 0%nat + av x 1%nat 0%nat 0%nat) / 2).
Example C109_gradient_case : forall t, (forall x, shape_eq (row_mean x) x) /\ positive_shape (col2 1500 3000) /\ usual 30 /\
  exists s, gradient_sizing_f row_mean t (col2 1500 3000) 30 = SzOk s.
Proof.
  intros t. split; [repeat split|]. split; [repeat split; cbn; lia|]. split.
  { split; [apply Rle_trans with 1; [|lra]; rewrite <- Rinv_1; apply Rinv_le_contravar; lra|lra]. }
  assert (NI : forall z, (Z.abs z < 2 ^ 24)%Z -> rd t (IZR z) = IZR z).
  { intros z Z. apply rd_id. replace (IZR z) with (IZR z / 2 ^ 0) by (cbn [pow]; lra). apply lit_number; [exact Z|lia]. }
  unfold gradient_sizing_f. rewrite (proj2 (Reqb_false 30 0)) by lra. rewrite (proj2 (Rltb_false 30 0)) by lra. unfold gradient_of_variance_f.
  assert (W : forall i j k, av (window_variance_f row_mean t (col2 1500 3000)) i j k = 562500).
  { intros i j k. unfold window_variance_f. cbn [amap2 amap av row_mean col2 Nat.eqb].
    replace (1500 * 1500) with 2250000 by lra. replace (3000 * 3000) with 9000000 by lra. rewrite (NI 2250000%Z), (NI 9000000%Z) by lia.
    replace ((1500 + 3000) / 2 * ((1500 + 3000) / 2)) with 5062500 by lra. rewrite (NI 5062500%Z) by lia. replace ((2250000 + 9000000) / 2 - 5062500) with 562500 by lra. apply (NI 562500%Z). lia. }
  assert (M : amax (window_variance_f row_mean t (col2 1500 3000)) = 562500).
  { destruct (amax_attained (window_variance_f row_mean t (col2 1500 3000))) as (i & j & k & _ & <-); [repeat split; cbn; lia|]. apply W. }
  rewrite M. rewrite (proj2 (Reqb_false 562500 0)) by lra. eexists. reflexivity.
Qed.
