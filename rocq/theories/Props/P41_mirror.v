(** C105: the sizes of a mirrored velocity model.  Vocabulary: Spec/Mirror.v, Spec/Grid.v. *)
From Coq Require Import List ZArith Reals Bool Lia Lra.
From Verif Require Import Model.Base Model.FastHJ Model.Sizing Model.UFilter Spec.Grid Spec.Velocity Spec.Mirror Proofs.ListAux Proofs.GridIndex Proofs.Limgrad Proofs.LimgradMain
  Proofs.SizingArr Proofs.SizingMain Proofs.SizingMore Proofs.UFilterProofs Proofs.Compare Proofs.MirrorProofs Props.P01_limiter Props.P30_filter Props.P34_compare.
Import ListNotations.
Local Open Scope R_scope.

(** without grading: exactly the mirror image, padding included, if the windows along the reversed axes are centred (or grad is not used) *)
Theorem C105_ungraded : forall bx by_ win o b vp vp', (0 < n0 vp)%nat -> (0 < n1 vp)%nat -> (0 < n2 vp)%nat -> reversed bx by_ vp vp' -> o_grade o = 0 ->
  o_grad o = 0 \/ (bx = true -> centred (nth 1 win 0)) /\ (by_ = true -> centred (nth 2 win 0)) ->
  reversed_outcome bx by_ (get_sizing (uniform_filter win) o b vp) (get_sizing (uniform_filter win) o b vp').
Proof. intros bx by_ win o b vp vp' P0 P1 P2 M GZ G. apply mir_sizing; [exact GZ | exact G | repeat split; assumption | exact M]. Qed.
Print Assumptions C105_ungraded.

(** with grading: the mirror image up to the tolerance to which both results are graded, once per grid step *)
Theorem C105_graded : forall bx by_ win o b vp vp' a v d a' v' d' tol, sensible o b vp -> reversed bx by_ vp vp' -> 0 < o_grade o -> o_domain_pad o = 0 ->
  o_grad o = 0 \/ (bx = true -> centred (nth 1 win 0)) /\ (by_ = true -> centred (nth 2 win 0)) ->
  get_sizing (uniform_filter win) o b vp = SzOk (a, v, d) -> get_sizing (uniform_filter win) o b vp' = SzOk (a', v', d') ->
  0 <= tol -> let step := (bget b 1 - bget b 0) / INR (n0 vp) * o_grade o in
  graded (n0 a) (n1 a) (n2 a) (step + tol) (flattenF a) -> graded (n0 a') (n1 a') (n2 a') (step + tol) (flattenF a') ->
  (n0 a', n1 a', n2 a') = (n0 a, n1 a, n2 a) /\
  forall i j k, has a i j k -> Rabs (av a' i j k - av a i (flip bx (n1 a) j) (flip by_ (n2 a) k)) <= INR (n0 a + n1 a + n2 a - 3) * tol.
Proof.
  intros bx by_ win o b vp vp' a v d a' v' d' tol S M GG PZ G H H' TL step GR GR'. pose proof (sensible_grid _ _ _ S) as IG. destruct S as (AD & _ & _ & _ & _ & NN & BX & HM).
  destruct (get_sizing_inv _ _ _ _ _ _ _ H) as (v1 & a0 & c & e & P1 & _ & I1 & C1 & G1 & D1 & S1 & S0 & S2 & S3).
  destruct (get_sizing_inv _ _ _ _ _ _ _ H') as (v1' & a0' & c' & e' & P1' & _ & I1' & C1' & G1' & D1' & S1' & S0' & S2' & S3').
  rewrite PZ in D1, D1'. unfold domain_pad, Rgtb in D1, D1'. rewrite (proj2 (Rltb_false 0 0)) in D1, D1' by lra. injection D1 as <- <- <-. injection D1' as <- <- <-.
  pose proof (mir_prepare bx by_ o vp vp' M) as MV. rewrite P1, P1' in MV. cbn [mir_res] in MV.
  assert (PV : positive_shape v1) by (eapply shape_pos; [apply shape_eq_sym; exact S1 | apply int_grid_pos, IG]).
  pose proof (mir_initial bx by_ win o v1 v1' G PV MV) as MI. rewrite I1, I1' in MI. cbn [mir_res] in MI.
  assert (SA : shape_eq (clamp (o_hmin o) (o_hmax o) a0) v1) by (eapply shape_eq_trans; [apply clamp_shape | eapply shape_eq_trans; [exact S0 | apply shape_eq_sym; exact S1]]).
  pose proof (mir_courant bx by_ v1 v1' _ _ (o_cr_max o) (o_dt o) (o_space_order o) MV (mir_clamp bx by_ (o_hmin o) (o_hmax o) _ _ MI) SA) as MC. rewrite C1, C1' in MC. cbn [mir_res] in MC.
  assert (PC : forall i j k, inr c i j k -> 0 <= av c i j k).
  { intros i j k I. pose proof (clamp_bounds (o_hmin o) (o_hmax o) a0 i j k (proj2 HM)) as B. pose proof C1 as C2. apply courant_on_inv in C2.
    destruct C2 as [[_ E] | (X & Y & Z & _)]; [rewrite E; lra|].
    destruct (courant_point v1 _ _ _ _ c i j k C1 X Y Z ltac:(destruct S1 as (-> & _); exact AD) ltac:(lra)) as [L _]. lra. }
  assert (IC : int_grid c) by (eapply shape_int_grid; [apply shape_eq_sym; exact S2 | exact IG]).
  assert (EN : 0 <= (bget b 1 - bget b 0) / INR (n0 vp)) by (apply (elen_nonneg b vp); [apply IG | exact BX]).
  assert (N1 : n0 v1 = n0 vp) by apply S1. assert (N1' : n0 v1' = n0 vp). { destruct S1' as (_ & -> & _). apply (mir_shape _ _ _ _ M). }
  rewrite N1 in G1. rewrite N1' in G1'.
  pose proof (gradation_shape _ _ _ _ G1) as SE. pose proof (gradation_shape _ _ _ _ G1') as SE'. pose proof (mir_shape _ _ _ _ MC) as SC.
  assert (SEE : shape_eq e' e) by (eapply shape_eq_trans; [exact SE' | eapply shape_eq_trans; [exact SC | apply shape_eq_sym; exact SE]]).
  split; [destruct SEE as (_ & -> & -> & ->); reflexivity|]. intros i j k I.
  assert (J : inr c i j k) by exact (shape_eq_inr _ _ _ _ _ SE I).
  destruct SE as (_ & E0 & E1 & E2). rewrite E0, E1, E2.
  pose proof (mir_grading bx by_ c c' _ _ tol e e' IC EN TL GG PC MC G1 G1' GR' i j k J) as U.
  assert (IC' : int_grid c') by (eapply shape_int_grid; [apply shape_eq_sym; exact SC | exact IC]).
  assert (PC' : forall x y z, inr c' x y z -> 0 <= av c' x y z).
  { intros x y z Q. assert (K : inr c x y z) by exact (shape_eq_inr _ _ _ _ _ SC Q). destruct MC as [_ MC]. rewrite MC by exact K. apply PC, inr_flip, K. }
  pose proof (inr_flip bx by_ _ _ _ _ J) as JF. assert (JF' : inr c' i (flip bx (n1 c) j) (flip by_ (n2 c) k)) by (eapply shape_eq_inr; [apply shape_eq_sym; exact SC | exact JF]).
  pose proof (mir_grading bx by_ c' c _ _ tol e' e IC' EN TL GG PC' (mir_sym _ _ _ _ MC) G1' G1 GR i _ _ JF') as L.
  destruct SC as (_ & Q0 & Q1 & Q2). rewrite Q0, Q1, Q2 in L. destruct J as (J0 & J1 & J2). rewrite !flip_flip in L by assumption.
  apply Rabs_le_iff. lra.
Qed.
Print Assumptions C105_graded.

(** ---- the default window of ten samples is not centred ---- *)
Definition row (f : nat -> R) : garr := mkArr 2 1 3 1 (fun _ j _ => f j).
Definition f105 (j : nat) : R := nth j [1000; 1000; 2000] 0.
Definition g105 (j : nat) : R := nth j [2000; 1000; 1000] 0.
Definition o105 : opts := mkOpts (Some 1500) 1 99999 0 2 1000 0 1 0 1 PadEdge 0 MS.
Definition b105 : bbox := [0; 1; 0; 3].
Lemma row_mirrored : reversed true false (row f105) (row g105).
Proof. split; [reflexivity|]. intros i j k (_ & J & _). cbn in J. unfold f105, g105, flip. cbn [row av n1]. destruct j as [|[|[|j]]]; [reflexivity.. | lia]. Qed.
Lemma int10 : int_of 10 = 10%nat.
Proof. unfold int_of. replace 10 with (INR 10) by (cbn; lra). unfold Int_part. rewrite <- (tech_up (INR 10) 11); [reflexivity | cbn; lra | cbn; lra]. Qed.
Definition extra (f : nat -> R) (j : nat) : R :=
  match j with 0%nat => f 1%nat + f 2%nat + f 2%nat + f 1%nat | 1%nat => f 2%nat + f 2%nat + f 1%nat + f 0%nat | _ => f 2%nat + f 1%nat + f 0%nat + f 0%nat end.
Lemma INR10 : INR 10 = 10. Proof. cbn. lra. Qed.
Lemma line10 f j : (j < 3)%nat -> mean_line 10 3 f j = (2 * (f 0%nat + f 1%nat + f 2%nat) + extra f j) / 10.
Proof.
  intro J. unfold mean_line. rewrite INR10. f_equal. rewrite <- (map_map (fun x => reflect 3 (Z.of_nat j - Z.of_nat (10 / 2) + Z.of_nat x)) f).
  destruct j as [|[|[|j]]]; [| | | lia]; (match goal with |- context [map f ?l] => let r := eval vm_compute in l in change l with r end); cbn [map fold_right extra]; ring.
Qed.
Lemma line1 f i : mean_line 10 1 f i = f 0%nat.
Proof.
  unfold mean_line. rewrite INR10. rewrite (map_ext _ (fun _ => f 0%nat)); [cbn; lra|]. intro x. f_equal. pose proof (reflect_lt 1 (Z.of_nat i - Z.of_nat (10 / 2) + Z.of_nat x) ltac:(lia)). lia.
Qed.
Lemma filter10 f j : (j < 3)%nat -> av (uniform_filter (windows (Scalar 10) (row f)) (row f)) 0 j 0 = (2 * (f 0%nat + f 1%nat + f 2%nat) + extra f j) / 10.
Proof.
  intro J. unfold windows, uniform_filter, along. cbn [row adim repeat nth]. rewrite (proj2 (Rltb_true 1 10)), (proj2 (Rltb_false 1 0)) by lra. rewrite int10. cbn [mean1 mean0 av row n0 n1 n2].
  rewrite <- line10 by exact J. unfold mean_line at 1. unfold mean_line at 2. f_equal. f_equal. apply map_ext. intro x. apply (line1 (fun _ => f _)).
Qed.
Lemma variance10 f j : (j < 3)%nat -> let s := (2 * (f 0%nat + f 1%nat + f 2%nat) + extra f j) / 10 in
  av (window_variance (uniform_filter (windows (Scalar 10) (row f))) (row f)) 0 j 0 =
  (2 * (f 0%nat * f 0%nat + f 1%nat * f 1%nat + f 2%nat * f 2%nat) + extra (fun x => f x * f x) j) / 10 - s * s.
Proof.
  intros J s. unfold window_variance. cbn [av amap2]. rewrite filter10 by exact J. fold s. f_equal. exact (filter10 (fun x => f x * f x) j J).
Qed.
Lemma flat_row a : (n0 a, n1 a, n2 a) = (1, 3, 1)%nat -> flattenF a = [av a 0 0 0; av a 0 1 0; av a 0 2 0]%nat.
Proof. intro E. injection E as E0 E1 E2. unfold flattenF. rewrite E0, E1, E2. reflexivity. Qed.
Lemma shape_row f : (n0 (window_variance (uniform_filter (windows (Scalar 10) (row f))) (row f)), n1 (window_variance (uniform_filter (windows (Scalar 10) (row f))) (row f)), n2 (window_variance (uniform_filter (windows (Scalar 10) (row f))) (row f))) = (1, 3, 1)%nat.
Proof. destruct (variance_shape (windows (Scalar 10) (row f)) (row f)) as (_ & -> & -> & ->). reflexivity. Qed.
(** the size at sample j when the three variances are v0, v1, v2 with maximum m and minimum l *)
Lemma size10 f v0 v1 v2 m l : (forall j, (j < 3)%nat -> av (window_variance (uniform_filter (windows (Scalar 10) (row f))) (row f)) 0 j 0 = nth j [v0; v1; v2] 0) ->
  0 < m -> max_list [v0; v1; v2] = m -> min_list [v0 / m; v1 / m; v2 / m] = l -> (forall v, In v [v0; v1; v2] -> l <= v / m <= 1) -> 0 <= l ->
  exists a, get_sizing (uniform_filter (windows (Scalar 10) (row f))) o105 b105 (row f) = SzOk (a, row f, b105) /\ (n0 a, n1 a, n2 a) = (1, 3, 1)%nat /\
  forall j, (j < 3)%nat -> av a 0%nat j 0%nat = 1000 / (nth j [v0; v1; v2] 0 / m - l + 1 / 10).
Proof.
  intros V M MX MN B L. set (w := window_variance (uniform_filter (windows (Scalar 10) (row f))) (row f)) in *.
  assert (FW : flattenF w = [v0; v1; v2]). { rewrite flat_row by apply shape_row. rewrite !V by lia. reflexivity. }
  unfold get_sizing. assert (PR : prepare_vp o105 (row f) = SzOk (row f)).
  { unfold prepare_vp, o105. cbn [o_vp_water o_units convert_units]. apply water_row0_kept. intros i j k (I & _) Z. cbn in I. lia. }
  rewrite PR. cbn [sbind]. unfold bbox_dim, b105. cbn [length Nat.eqb]. unfold initial_size, o105. cbn [o_wl o_grad o_hmin o_hmax o_cr_max o_dt o_space_order o_grade o_pad_style o_domain_pad o_freq].
  unfold Rgtb at 1 2. rewrite (proj2 (Rltb_false 0 0)), (proj2 (Rltb_true 0 1000)) by lra. cbn [orb].
  unfold wavelength_sizing. rewrite (proj2 (Reqb_true 0 0) eq_refl). cbn [sbind]. unfold gradient_sizing. rewrite (proj2 (Reqb_false 1000 0)), (proj2 (Rltb_false 1000 0)) by lra.
  fold w. unfold gradient_of_variance. unfold amax at 1. rewrite FW, MX, (proj2 (Reqb_false m 0)) by lra. cbn [sbind].
  rewrite (courant_off (fun x => x) _ _ 1 0 1) by (right; left; reflexivity). cbn [sbind]. rewrite gradation_off. cbn [sbind]. unfold domain_pad, Rgtb. rewrite (proj2 (Rltb_false 0 0)) by lra.
  eexists. split; [reflexivity|]. split; [reflexivity|]. intros j J. cbn [clamp amap amap2 av]. rewrite V by exact J.
  assert (AM : amin (amap (fun v => v / amax w) w) = l).
  { unfold amin. replace (flattenF (amap (fun v => v / amax w) w)) with [v0 / m; v1 / m; v2 / m]; [exact MN|].
    rewrite flat_row by (pose proof (shape_row f) as E; exact E). cbn [amap av]. unfold amax. rewrite FW, MX, !V by lia. reflexivity. }
  rewrite AM. unfold amax. rewrite FW, MX. assert (IN : In (nth j [v0; v1; v2] 0) [v0; v1; v2]) by (apply nth_In; exact J).
  destruct (B _ IN) as [B1 B2]. set (v := nth j [v0; v1; v2] 0) in *. clearbody v. set (q := v / m) in *. clearbody q.
  assert (1 <= 1000 / (q - l + 1 / 10) <= 99999) as [X Y].
  { assert (0 < q - l + 1 / 10 <= 11 / 10) as [P1 P2] by lra. split.
    - apply Rmult_le_reg_r with (q - l + 1 / 10); [exact P1|]. unfold Rdiv at 2. rewrite Rmult_assoc, Rinv_l by lra. lra.
    - apply Rmult_le_reg_r with (q - l + 1 / 10); [exact P1|]. unfold Rdiv at 1. rewrite Rmult_assoc, Rinv_l by lra. lra. }
  set (s := 1000 / (q - l + 1 / 10)) in *. clearbody s. rewrite Rmin_right by lra. unfold Rgtb. rewrite (proj2 (Rltb_false s 1)), (proj2 (Rltb_false 99999 s)) by lra. reflexivity.
Qed.
Theorem C105_default_window_refuted : exists o b vp vp' a v d a' v' d', reversed true false vp vp' /\ o_grade o = 0 /\
  get_sizing (uniform_filter (windows (Scalar 10) vp)) o b vp = SzOk (a, v, d) /\ get_sizing (uniform_filter (windows (Scalar 10) vp')) o b vp' = SzOk (a', v', d') /\
  ~ reversed true false a a'.
Proof.
  destruct (size10 f105 240000 240000 210000 240000 (7/8)) as (a & H & SH & A).
  { intros j J. rewrite variance10 by exact J. unfold f105, extra. destruct j as [|[|[|j]]]; [cbn [nth]; lra.. | lia]. }
  { lra. } { cbn. unfold Rmax. repeat (destruct (Rle_dec _ _); try lra). } { cbn. unfold Rmin. repeat (destruct (Rle_dec _ _); try lra). } { intros v [<- | [<- | [<- | []]]]; lra. } { lra. }
  destruct (size10 g105 160000 210000 240000 240000 (2/3)) as (a' & H' & SH' & A').
  { intros j J. rewrite variance10 by exact J. unfold g105, extra. destruct j as [|[|[|j]]]; [cbn [nth]; lra.. | lia]. }
  { lra. } { cbn. unfold Rmax. repeat (destruct (Rle_dec _ _); try lra). } { cbn. unfold Rmin. repeat (destruct (Rle_dec _ _); try lra). } { intros v [<- | [<- | [<- | []]]]; lra. } { lra. }
  exists o105, b105, (row f105), (row g105), a, (row f105), b105, a', (row g105), b105.
  split; [exact row_mirrored|]. split; [reflexivity|]. split; [exact H|]. split; [exact H'|].
  intros [_ Q]. injection SH as E0 E1 E2. specialize (Q 0%nat 1%nat 0%nat). unfold has in Q. rewrite E0, E1, E2 in Q. specialize (Q ltac:(lia)). change (flip true 3 1) with 1%nat in Q. change (flip false 1 0) with 0%nat in Q.
  rewrite (A' 1%nat), (A 1%nat) in Q by lia. cbn [nth] in Q. lra.
Qed.
Print Assumptions C105_default_window_refuted.

(** ---- cases ---- *)
(** five samples per window: gradient sizes, two layers of padding on each side *)
Definition oc : opts := mkOpts (Some 1500) 1 99999 10 2 1000 0 1 0 1 PadLinearRamp 2 MS.
Lemma int5 : int_of 5 = 5%nat.
Proof. unfold int_of. replace 5 with (INR 5) by (cbn; lra). unfold Int_part. rewrite <- (tech_up (INR 5) 6); [reflexivity | cbn; lra | cbn; lra]. Qed.
Example C105_case : (exists r r', get_sizing (uniform_filter [5; 5]) oc b105 (row f105) = SzOk r /\ get_sizing (uniform_filter [5; 5]) oc b105 (row g105) = SzOk r' /\
    reversed_outcome true false (SzOk r) (SzOk r')) /\
  (exists a v a' v', get_sizing (uniform_filter []) (o99 1) b99 (col 3) = SzOk (a, v, b99) /\ get_sizing (uniform_filter []) (o99 1) b99 (col 3) = SzOk (a', v', b99) /\
    sensible (o99 1) b99 (col 3) /\ reversed true true (col 3) (col 3) /\
    graded (n0 a) (n1 a) (n2 a) ((bget b99 1 - bget b99 0) / INR (n0 (col 3)) * o_grade (o99 1) + 0) (flattenF a)).
Proof.
  split.
  - assert (AC : forall f, f = f105 \/ f = g105 -> exists r, get_sizing (uniform_filter [5; 5]) oc b105 (row f) = SzOk r).
    { intros f F. assert (PR : prepare_vp oc (row f) = SzOk (row f)).
      { unfold prepare_vp, oc. cbn [o_vp_water o_units convert_units]. apply water_row0_kept. intros i j k (I & _) Z. cbn in I. lia. }
      apply (C95_accepted_calls _ _ b105 _ (row f)); [unfold int_grid; cbn; lia | left; reflexivity | cbn; lia | unfold b105, bget; cbn; lra | cbn; lra | cbn; lra | intros _; exact PR |].
      unfold acceptable. split; [intros (i & j & k & (I & _) & Z & _); cbn in I; lia|]. unfold oc; cbn [o_wl o_grad o_freq o_cr_max o_dt o_space_order o_grade o_domain_pad o_pad_style].
      split; [|split; [right; left; reflexivity | split; [lra | split; [lra | intros _; discriminate]]]]. intros _. repeat split; try lra. intros _.
      exists 1%nat. split; [lia|]. split; [cbn; lra|]. exists 0%nat, 0%nat, 0%nat, 0%nat, 2%nat, 0%nat. unfold has. cbn [row n0 n1 n2 av].
      repeat split; try lia. destruct F as [-> | ->]; unfold f105, g105; cbn; lra. }
    destruct (AC f105 (or_introl eq_refl)) as [r E]. destruct (AC g105 (or_intror eq_refl)) as [r' E']. exists r, r'. split; [exact E|]. split; [exact E'|]. rewrite <- E, <- E'.
    apply C105_ungraded; [cbn; lia.. | exact row_mirrored | reflexivity |]. right. split; [|discriminate]. intros _. right. cbn [nth]. rewrite int5. exists 2%nat. reflexivity.
  - pose proof (sizing99 3 [] ltac:(lra)) as E. pose proof t9_bound. rewrite (proj2 (Rltb_true (2 + t9) 3)) in E by lra.
    do 4 eexists. split; [exact E|]. split; [exact E|]. split; [|split].
    + unfold sensible, o99, b99, col, bget; cbn. repeat split; try lia; try lra. intros i _ _ _. destruct i; cbn; lra.
    + split; [reflexivity|]. intros i j k _. reflexivity.
    + unfold o99, b99, bget; cbn [nth o_grade n0 n1 n2 col reshapeF].
      intros [[i j] k] [[i' j'] k'] (A & B & C) (A' & B' & C') D. unfold adjacent, gdist, adist in D. replace (INR 2) with 2 by (cbn; lra).
      assert (j = 0 /\ k = 0 /\ j' = 0 /\ k' = 0)%nat as (-> & -> & -> & ->) by lia. unfold val, pos.
      destruct i as [|[|i]], i' as [|[|i']]; try lia; cbn; apply Rabs_le_iff; lra.
Qed.
