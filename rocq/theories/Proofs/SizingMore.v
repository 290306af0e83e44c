(** C10, C12-C16, C18: witnesses and remaining facts about the size function. *)
From Coq Require Import List ZArith Reals Lia Lra Psatz Bool.
From Verif Require Import Model.Base Model.FastHJ Model.Sizing Spec.Grid
  Proofs.ListAux Proofs.GridIndex Proofs.Limgrad Proofs.LimgradMain Proofs.SizingArr Proofs.SizingMain.
Import ListNotations.
Local Open Scope R_scope.

Ltac rb := repeat match goal with
  | |- context[Rltb ?x ?y] => first [rewrite (proj2 (Rltb_true x y)) by lra | rewrite (proj2 (Rltb_false x y)) by lra]
  | |- context[Reqb ?x ?y] => first [rewrite (proj2 (Reqb_true x y)) by lra | rewrite (proj2 (Reqb_false x y)) by lra]
  end.

Section P.
Variable ufilter : garr -> garr.

(** C10 positive: without grading the final values in the original block satisfy the Courant bound *)
Lemma courant_without_grading o b vp vp1 a4 vp4 b4 p0 p1 p2 :
  0 < o_hmin o <= o_hmax o -> (0 < adim vp)%nat ->
  o_grade o = 0 -> 0 < o_cr_max o -> 0 < o_dt o -> 1 <= o_space_order o ->
  prepare_vp o vp = SzOk vp1 -> pad_of o b vp = (p0, p1, p2) ->
  get_sizing ufilter o b vp = SzOk (a4, vp4, b4) ->
  forall i j k, inr vp i j k ->
  av vp1 i j k * o_dt o / (INR (adim vp) * av a4 (p0 + i)%nat (p1 + j)%nat (p2 + k)%nat)
    <= o_cr_max o / (INR (adim vp) * o_space_order o).
Proof.
  intros Hh Had Hgr Hcr Hdt Hso Hprep Hpad H i j k Hin. apply get_sizing_inv in H.
  destruct H as (vp1' & a0 & a2 & a3 & H1 & _ & H2 & H3 & H4 & H5 & S1 & S0 & S2 & S3).
  rewrite Hprep in H1. injection H1 as <-.
  rewrite Hgr, gradation_off in H4. injection H4 as <-.
  assert (Epad : pad_of o b vp1 = (p0, p1, p2)).
  { rewrite <- Hpad. unfold pad_of, pad_counts, dz_of, dx_of, dy_of. destruct S1 as (-> & -> & -> & ->). reflexivity. }
  assert (Hin3 : inr a2 i j k) by (eapply shape_eq_inr; [apply shape_eq_sym; exact S3|exact Hin]).
  rewrite (domain_pad_inner _ _ _ _ _ _ _ _ p0 p1 p2 i j k H5 Epad Hin3).
  pose proof (clamp_bounds (o_hmin o) (o_hmax o) a0 i j k (proj2 Hh)) as Hc.
  assert (Ed : adim vp1 = adim vp) by apply S1.
  destruct (courant_point _ _ _ _ _ _ i j k H3 Hcr Hdt Hso ltac:(lia) ltac:(lra)) as (_ & B & _).
  rewrite Ed in B. exact B.
Qed.

(** two velocities in one column *)
Definition col2 (x y : R) : garr := mkArr 2 2 1 1 (fun i _ _ => if Nat.eqb i 0 then x else y).

Lemma col2_flat x y : flattenF (col2 x y) = [x; y].
Proof. reflexivity. Qed.

Lemma col2_int x y : int_grid (col2 x y).
Proof. unfold int_grid, col2; cbn. lia. Qed.

Lemma col2_inr x y i j k : inr (col2 x y) i j k -> (i = 0 \/ i = 1)%nat /\ j = 0%nat /\ k = 0%nat.
Proof. unfold inr, col2; cbn. lia. Qed.

Definition c10_opts : opts :=
  mkOpts (Some 1500) (3/2) 10000 0 2 0 (1/10) 1 (1/1000) 1 PadEdge 0 MS.
Definition c10_vp : garr := col2 1800 1500.
Definition c10_box : bbox := [0; 2; 0; 1].

Lemma c10_prepare : prepare_vp c10_opts c10_vp = SzOk c10_vp.
Proof.
  unfold prepare_vp, c10_opts. cbn [o_vp_water o_units convert_units]. unfold replace_water, water_trigger, c10_vp.
  cbn. unfold is_water. rb. reflexivity.
Qed.

Lemma col2_eta f : flattenF (mkArr 2 2 1 1 f) = [f 0 0 0; f 1 0 0]%nat.
Proof. reflexivity. Qed.

(** the state handed to the limiter *)
Lemma c10_before_grading : exists a2,
  courant c10_vp (clamp (3/2) 10000 (amap (fun _ => 3/2) c10_vp)) 1 (1/1000) 1 = SzOk a2 /\
  adim a2 = 2%nat /\ n0 a2 = 2%nat /\ n1 a2 = 1%nat /\ n2 a2 = 1%nat /\ flattenF a2 = [9/5; 3/2].
Proof.
  unfold courant. rb. cbn [orb].
  assert (E : flattenF (clamp (3/2) 10000 (amap (fun _ => 3/2) c10_vp)) = [3/2; 3/2]).
  { unfold clamp, amap, c10_vp, col2. cbn. unfold Rgtb. rb. reflexivity. }
  rewrite E. cbn [existsb]. rb. cbn [orb].
  eexists. split; [reflexivity|]. cbn [adim n0 n1 n2 amap2 c10_vp col2].
  repeat (split; [reflexivity|]).
  unfold amap2, clamp, amap, c10_vp, col2. rewrite col2_eta. cbn [av n0 n1 n2 adim Nat.eqb].
  unfold Rgtb. replace (INR 2) with 2 by (cbn; ring). rb. apply f_equal2; [lra|reflexivity].
Qed.

Lemma sqrt_9_low : 31 / 1000000 < sqrt (1 / 10 ^ 9).
Proof.
  assert (H : sqrt ((31 / 1000000) * (31 / 1000000)) < sqrt (1 / 10 ^ 9)) by (apply sqrt_lt_1; lra).
  rewrite sqrt_square in H by lra. exact H.
Qed.
Lemma sqrt_9_high : sqrt (1 / 10 ^ 9) < 32 / 1000000.
Proof.
  assert (H : sqrt (1 / 10 ^ 9) < sqrt ((32 / 1000000) * (32 / 1000000))) by (apply sqrt_lt_1; lra).
  rewrite sqrt_square in H by lra. exact H.
Qed.

Lemma max_sweeps_INR : INR max_sweeps = 10000.
Proof. unfold max_sweeps. rewrite INR_IZR_INZ, Z2Nat.id by lia. reflexivity. Qed.

(** the limiter on a two-node column with values x > y close enough to converge within the cap *)
Lemma two_node_converges x y elen grade : 0 < y -> y <= x -> (x - y) / (y * (31 / 1000000)) <= 9998 -> 0 <= elen -> 0 <= grade ->
  limgrad_converged idR (Z.of_nat 2) (Z.of_nat 1) (Z.of_nat 1) elen grade max_sweeps [x; y].
Proof.
  intros Hy Hxy Hb He Hg.
  assert (Hd : valid_dims 2 1 1) by (unfold valid_dims; lia).
  assert (Hpos : forall z, In z [x; y] -> 0 < z) by (intros z [<-|[<-|[]]]; lra).
  assert (Hm : is_min [x; y] y).
  { split; [right; left; reflexivity|]. intros z [<-|[<-|[]]]; lra. }
    apply (terminates 2 1 1 elen grade max_sweeps [x; y] y Hd eq_refl Hpos He Hg Hm).
    rewrite max_sweeps_INR. cbn [rsum length INR].
    replace (x + (y + 0) - (1 + 1) * y) with (x - y) by ring.
    pose proof sqrt_9_low as Hq. revert Hq. generalize (sqrt (1 / 10 ^ 9)). intros t Ht.
    assert ((x - y) / (y * t) <= (x - y) / (y * (31 / 1000000))).
    { unfold Rdiv. apply Rmult_le_compat_l; [lra|]. apply Rinv_le_contravar; nra. }
    lra.
Qed.

Lemma two_node_limit x y elen grade : 0 < y -> y <= x -> (x - y) / (y * (31 / 1000000)) <= 9998 -> 0 <= elen -> 0 <= grade ->
  exists out, limgrad idR (Z.of_nat 2) (Z.of_nat 1) (Z.of_nat 1) elen grade max_sweeps [x; y] = Some out /\
    nth 0 out 0 <= y + elen * grade + y * (32 / 1000000).
Proof.
  intros Hy Hxy Hb He Hg.
  assert (Hd : valid_dims 2 1 1) by (unfold valid_dims; lia).
  assert (Hpos : forall z, In z [x; y] -> 0 < z) by (intros z [<-|[<-|[]]]; lra).
  assert (Hm : is_min [x; y] y).
  { split; [right; left; reflexivity|]. intros z [<-|[<-|[]]]; lra. }
  assert (Hconv : limgrad_converged idR (Z.of_nat 2) (Z.of_nat 1) (Z.of_nat 1) elen grade max_sweeps [x; y]).
  { apply two_node_converges; assumption. }
  destruct Hconv as (out & Eo). exists out. 
  split; [unfold limgrad; rewrite Eo; reflexivity|].
  assert (Hnn : forall z, In z [x; y] -> 0 <= z) by (intros z Hz; apply Rlt_le, Hpos, Hz).
  pose proof (converged_bound idR (fun _ => True) idR_rounding 2 1 1 elen grade max_sweeps [x; y] out Hd eq_refl
    ltac:(apply Forall_forall; auto) Hnn He Hg Eo (1, 0, 0)%nat (0, 0, 0)%nat ltac:(unfold in_grid; lia) ltac:(unfold in_grid; lia)
    ltac:(reflexivity)) as HB.
  destruct (refines_only idR (fun _ => True) idR_rounding 2 1 1 elen grade max_sweeps [x; y] Hd eq_refl
    ltac:(apply Forall_forall; auto) Hnn He Hg) as (o' & Eo' & _ & Hdec & _).
  unfold limgrad in Eo'. rewrite Eo in Eo'. cbn in Eo'. injection Eo' as <-.
  specialize (Hdec 1%nat). cbn [nth] in Hdec.
  unfold val, pos in HB. cbn [Nat.mul Nat.add] in HB.
  unfold ftol_of, idR in HB.
  assert (Em : min_list [x; y] = y).
  { eapply is_min_unique; [apply is_min_min_list; discriminate|exact Hm]. }
  rewrite Em in HB. pose proof sqrt_9_high as Hq. revert HB Hq. generalize (sqrt (1 / 10 ^ 9)). intros t HB Ht. nra.
Qed.

Lemma grading_breaks_courant :
  exists o b vp a4 vp4 b4 i j k,
    int_grid vp /\ 0 < o_hmin o <= o_hmax o /\ 0 < o_dt o /\ 0 < o_cr_max o /\ 1 <= o_space_order o /\ 0 < o_grade o /\
    get_sizing ufilter o b vp = SzOk (a4, vp4, b4) /\ inr a4 i j k /\
    o_cr_max o / (INR (adim vp) * o_space_order o) < av vp4 i j k * o_dt o / (INR (adim vp) * av a4 i j k).
Proof.
  destruct c10_before_grading as (a2 & E2 & D & N0 & N1 & N2 & EF).
  destruct (two_node_limit (9/5) (3/2) 1 (1/10) ltac:(lra) ltac:(lra)) as (out & EL & HB); [|lra|lra|].
  { apply Rmult_le_reg_r with (3 / 2 * (31 / 1000000)); [lra|]. unfold Rdiv at 1. rewrite Rmult_assoc, Rinv_l; lra. }
  exists c10_opts, c10_box, c10_vp.
  assert (EG : get_sizing ufilter c10_opts c10_box c10_vp = SzOk (reshapeF 2 2 1 1 out, c10_vp, c10_box)).
  { unfold get_sizing. rewrite c10_prepare. cbn [sbind]. unfold bbox_dim, c10_box. cbn [length Nat.eqb].
    unfold initial_size, c10_opts. cbn [o_wl o_grad o_hmin o_hmax o_cr_max o_dt o_space_order o_grade o_pad_style o_domain_pad].
    unfold Rgtb at 1 2. rb. cbn [orb sbind]. rewrite E2. cbn [sbind].
    unfold gradation. rb. rewrite D, N0, N1, N2, EF. cbn [bget nth n0 c10_vp col2].
    replace (INR 2) with 2 by (cbn; ring). replace ((2 - 0) / 2) with 1 by lra.
    change (fun x : R => x) with idR. rewrite EL. cbn [sbind].
    unfold domain_pad. unfold Rgtb. rb. reflexivity. }
  exists (reshapeF 2 2 1 1 out), c10_vp, c10_box, 0%nat, 0%nat, 0%nat.
  split; [apply col2_int|]. unfold c10_opts; cbn [o_hmin o_hmax o_dt o_cr_max o_space_order o_grade].
  split; [lra|]. split; [lra|]. split; [lra|]. split; [lra|]. split; [lra|]. split; [exact EG|].
  split; [unfold inr; cbn; lia|].
  unfold reshapeF, c10_vp, col2; cbn [av adim Nat.eqb Nat.mul Nat.add]. replace (INR 2) with 2 by (cbn; ring).
  (* the graded value is positive *)
  assert (Hlow : 3/2 <= nth 0 out 0).
  { destruct (refines_only idR (fun _ => True) idR_rounding 2 1 1 1 (1/10) max_sweeps [9/5; 3/2] ltac:(unfold valid_dims; lia) eq_refl
     ltac:(apply Forall_forall; auto) ltac:(intros z [<-|[<-|[]]]; lra) ltac:(lra) ltac:(lra)) as (o' & Eo' & HL & _ & Hmin).
    rewrite EL in Eo'. injection Eo' as <-.
    assert (Hm : is_min [9/5; 3/2] (3/2)).
    { split; [right; left; reflexivity|]. intros z [<-|[<-|[]]]; lra. }
    apply (Hmin _ Hm). apply nth_In. rewrite HL. cbn. lia. }
  set (s := nth 0 out 0) in *. assert (Hs : 0 < 2 * s) by lra.
  apply Rmult_lt_reg_r with (2 * s); [exact Hs|]. 
  replace (1800 * (1 / 1000) / (2 * s) * (2 * s)) with (9 / 5) by (field; lra). lra.
Qed.

(** C08: the maximum is exceeded *)
Definition c08_opts : opts := mkOpts (Some 1500) 1 2 0 2 0 0 1 1 1 PadEdge 0 MS.
Lemma c08_run : exists a4, get_sizing ufilter c08_opts c10_box (col2 1800 1500) = SzOk (a4, col2 1800 1500, c10_box) /\
              inr a4 0 0 0 /\ av a4 0%nat 0%nat 0%nat = 1800.
Proof.
  unfold get_sizing.
    assert (EP : prepare_vp c08_opts (col2 1800 1500) = SzOk (col2 1800 1500)).
    { unfold prepare_vp, c08_opts. cbn [o_vp_water o_units convert_units]. unfold replace_water, water_trigger.
      cbn. unfold is_water. rb. reflexivity. }
    rewrite EP. cbn [sbind]. unfold bbox_dim, c10_box. cbn [length Nat.eqb].
    unfold initial_size, c08_opts. cbn [o_wl o_grad o_hmin o_hmax o_cr_max o_dt o_space_order o_grade o_pad_style o_domain_pad].
    unfold Rgtb at 1 2. rb. cbn [orb sbind].
    unfold courant. rb. cbn [orb].
    assert (EF : flattenF (clamp 1 2 (amap (fun _ => 1) (col2 1800 1500))) = [1; 1]).
    { unfold clamp, amap, col2. cbn. unfold Rgtb. rb. reflexivity. }
    rewrite EF. cbn [existsb]. rb. cbn [orb sbind].
    unfold gradation. rb. cbn [sbind]. unfold domain_pad. unfold Rgtb at 1. rb.
    eexists. split; [reflexivity|]. split; [unfold inr; cbn; lia|].
    unfold amap2, clamp, amap, col2; cbn [av Nat.eqb adim]. unfold Rgtb. replace (INR 2) with 2 by (cbn; ring). rb. lra.
Qed.

Lemma dt_exceeds_hmax :
  exists o b vp a4 vp4 b4 i j k,
    int_grid vp /\ 0 < o_hmin o <= o_hmax o /\ 0 < o_dt o /\
    get_sizing ufilter o b vp = SzOk (a4, vp4, b4) /\ inr a4 i j k /\ o_hmax o < av a4 i j k.
Proof.
  exists c08_opts, c10_box, (col2 1800 1500).
  assert (E : exists a4, get_sizing ufilter c08_opts c10_box (col2 1800 1500) = SzOk (a4, col2 1800 1500, c10_box) /\
              inr a4 0 0 0 /\ av a4 0%nat 0%nat 0%nat = 1800).
  { apply c08_run. }
  destruct E as (a4 & E & Hin & Ev). exists a4, (col2 1800 1500), c10_box, 0%nat, 0%nat, 0%nat.
  split; [apply col2_int|]. unfold c08_opts; cbn [o_hmin o_hmax o_dt].
  split; [lra|]. split; [lra|]. split; [exact E|]. split; [exact Hin|]. rewrite Ev. lra.
Qed.

(** C12 *)
Lemma water_trigger_spec vp : water_trigger vp = true <-> exists i j k, inr vp i j k /\ (0 < i)%nat /\ av vp i j k < 1 / 1000.
Proof.
  unfold water_trigger. rewrite existsb_exists. split.
  - intros ([[i j] k] & Hin & H). apply in_triples in Hin. apply andb_true_iff in H. destruct H as [H1 H2].
    exists i, j, k. split; [exact Hin|]. unfold is_water in H1. apply Rltb_true in H1.
    apply negb_true_iff, Nat.eqb_neq in H2. split; [lia|exact H1].
  - intros (i & j & k & Hin & Hi & Hv). exists (i, j, k). split; [apply in_triples; exact Hin|].
    apply andb_true_iff. split; [apply Rltb_true; exact Hv|]. apply negb_true_iff, Nat.eqb_neq. lia.
Qed.

Lemma water_replaced w vp : (exists i j k, inr vp i j k /\ (0 < i)%nat /\ av vp i j k < 1 / 1000) ->
  (forall x, w = Some x -> 1300 <= x <= 1800 ->
     exists vp1, replace_water w vp = SzOk vp1 /\ shape_eq vp1 vp /\
       forall i j k, av vp1 i j k = if Rlt_dec (av vp i j k) (1 / 1000) then x else av vp i j k) /\
  ((w = None \/ exists x, w = Some x /\ (x < 1300 \/ 1800 < x)) -> replace_water w vp = SzErr ValueError).
Proof.
  intros Ht. apply water_trigger_spec in Ht. unfold replace_water. rewrite Ht. split.
  - intros x -> Hx. unfold Rgtb. rb. cbn [orb]. eexists. split; [reflexivity|]. split; [repeat split|].
    intros i j k. unfold amap, is_water, Rltb; cbn [av]. destruct (Rlt_dec _ _); reflexivity.
  - intros [->|(x & -> & Hx)]; [reflexivity|]. unfold Rgtb.
    destruct Hx as [Hx|Hx]; [rewrite (proj2 (Rltb_true x 1300) Hx); reflexivity|].
    rewrite (proj2 (Rltb_true 1800 x) Hx), orb_true_r. reflexivity.
Qed.

Lemma water_row0_kept w vp : (forall i j k, inr vp i j k -> (0 < i)%nat -> 1 / 1000 <= av vp i j k) -> replace_water w vp = SzOk vp.
Proof.
  intros H. unfold replace_water. destruct (water_trigger vp) eqn:E; [|reflexivity].
  apply water_trigger_spec in E. destruct E as (i & j & k & Hin & Hi & Hv). specialize (H i j k Hin Hi). lra.
Qed.

(** C13 *)
Definition second_call (o : opts) (b : bbox) (vp : garr) : sizing_result (garr * garr * bbox) :=
  match prepare_vp o vp with SzOk vp' => get_sizing ufilter o b vp' | SzErr e => SzErr e | SzNonFinite => SzNonFinite end.

Lemma repeatable_ms o b vp : o_units o = MS ->
  (forall i j k, inr vp i j k -> (0 < i)%nat -> 1 / 1000 <= av vp i j k) ->
  prepare_vp o vp = SzOk vp /\ second_call o b vp = get_sizing ufilter o b vp.
Proof.
  intros Hu Hw. assert (E : prepare_vp o vp = SzOk vp) by (unfold prepare_vp; rewrite Hu; apply water_row0_kept; exact Hw).
  split; [exact E|]. unfold second_call. rewrite E. reflexivity.
Qed.

Lemma km_s_scales o vp : o_units o = KMS -> (forall i j k, inr vp i j k -> 1 / 1000000 <= av vp i j k) ->
  exists vp', prepare_vp o vp = SzOk vp' /\ forall i j k, av vp' i j k = 1000 * av vp i j k.
Proof.
  intros Hu Hw. unfold prepare_vp. rewrite Hu. cbn [convert_units]. rewrite water_row0_kept.
  - eexists. split; [reflexivity|]. intros i j k. cbn [amap av]. ring.
  - intros i j k Hin _. cbn [amap av]. specialize (Hw i j k Hin). lra.
Qed.

Definition c13_opts : opts := mkOpts (Some 1500) 1 (10 ^ 9) 1 1 0 0 1 0 1 PadEdge 0 KMS.
Lemma c13_run x y : 1 <= x <= 10000 -> 1 <= y <= 10000 ->
  exists a vp1, prepare_vp c13_opts (col2 x y) = SzOk vp1 /\
    get_sizing ufilter c13_opts c10_box (col2 x y) = SzOk (a, vp1, c10_box) /\ inr a 0 0 0 /\
    av vp1 0%nat 0%nat 0%nat = x * 1000 /\ vp1 = amap (fun v => v * 1000) (col2 x y) /\
    av a 0%nat 0%nat 0%nat = Rmin (x * 1000) 99999.
Proof.
  intros Hx Hy.
  assert (EP : prepare_vp c13_opts (col2 x y) = SzOk (amap (fun v => v * 1000) (col2 x y))).
  { unfold prepare_vp, c13_opts. cbn [o_vp_water o_units convert_units]. apply water_row0_kept.
    intros i j k Hin _. destruct (col2_inr x y i j k Hin) as [[->| ->] _]; cbn; lra. }
  unfold get_sizing. rewrite EP. cbn [sbind]. unfold bbox_dim, c10_box. cbn [length Nat.eqb].
  unfold initial_size, c13_opts. cbn [o_wl o_grad o_hmin o_hmax o_cr_max o_dt o_space_order o_grade o_pad_style o_domain_pad o_freq].
  unfold Rgtb at 1. rb. cbn [orb].
  unfold wavelength_sizing. rb. cbn [sbind]. unfold gradient_sizing. rb. cbn [sbind].
  rewrite (courant_off ufilter _ _ 1 0 1 (or_intror (or_introl eq_refl))). cbn [sbind]. rewrite gradation_off. cbn [sbind].
  unfold domain_pad. unfold Rgtb at 1. rb.
  do 2 eexists. split; [reflexivity|]. split; [reflexivity|]. split; [unfold inr; cbn; lia|]. split; [reflexivity|]. split; [reflexivity|].
  unfold clamp, amap2, amap, col2; cbn [av Nat.eqb]. unfold Rgtb.
  replace (x * 1000 / (1 * 1)) with (x * 1000) by field.
  assert (Hm1 : Rmin (x * 1000) 99999 <= 99999) by apply Rmin_r.
  assert (Hm2 : 1000 <= Rmin (x * 1000) 99999) by (apply Rmin_glb; lra).
  rb. reflexivity.
Qed.

Lemma not_repeatable_kms :
  exists o b vp a vp1 a' vp1' i j k, o_units o = KMS /\ int_grid vp /\
    get_sizing ufilter o b vp = SzOk (a, vp1, b) /\ second_call o b vp = SzOk (a', vp1', b) /\
    inr a i j k /\ inr a' i j k /\ av a i j k <> av a' i j k.
Proof.
  destruct (c13_run 2 2 ltac:(lra) ltac:(lra)) as (a & vp1 & EP & EG & Hin & _ & Evp & Ea).
  destruct (c13_run 2000 2000 ltac:(lra) ltac:(lra)) as (a' & vp1' & _ & EG' & Hin' & _ & _ & Ea').
  exists c13_opts, c10_box, (col2 2 2), a, vp1.
  assert (ES : exists a2 v2, second_call c13_opts c10_box (col2 2 2) = SzOk (a2, v2, c10_box) /\ inr a2 0 0 0 /\ av a2 0%nat 0%nat 0%nat = 99999).
  { unfold second_call. rewrite EP, Evp.
    unfold get_sizing.
    assert (EP2 : prepare_vp c13_opts (amap (fun v => v * 1000) (col2 2 2)) = SzOk (amap (fun v => v * 1000) (amap (fun v => v * 1000) (col2 2 2)))).
    { unfold prepare_vp, c13_opts. cbn [o_vp_water o_units convert_units]. apply water_row0_kept.
      intros i j k Hin0 _. assert (Hc : inr (col2 2 2) i j k) by exact Hin0.
      destruct (col2_inr 2 2 i j k Hc) as [[->| ->] _]; cbn; lra. }
    rewrite EP2. cbn [sbind]. unfold bbox_dim, c10_box. cbn [length Nat.eqb].
    unfold initial_size, c13_opts. cbn [o_wl o_grad o_hmin o_hmax o_cr_max o_dt o_space_order o_grade o_pad_style o_domain_pad o_freq].
    unfold Rgtb at 1. rb. cbn [orb].
    unfold wavelength_sizing. rb. cbn [sbind]. unfold gradient_sizing. rb. cbn [sbind].
    rewrite (courant_off ufilter _ _ 1 0 1 (or_intror (or_introl eq_refl))). cbn [sbind]. rewrite gradation_off. cbn [sbind].
    unfold domain_pad. unfold Rgtb at 1. rb.
    do 2 eexists. split; [reflexivity|]. split; [unfold inr; cbn; lia|].
    unfold clamp, amap2, amap, col2; cbn [av Nat.eqb]. unfold Rgtb.
    replace (2 * 1000 * 1000 / (1 * 1)) with 2000000 by field.
    rewrite Rmin_right by lra. rb. reflexivity. }
  destruct ES as (a2 & v2 & ES & Hin2 & Ev2).
  exists a2, v2, 0%nat, 0%nat, 0%nat.
  split; [reflexivity|]. split; [apply col2_int|]. split; [exact EG|]. split; [exact ES|]. split; [exact Hin|]. split; [exact Hin2|].
  rewrite Ev2, Ea. rewrite Rmin_left by lra. lra.
Qed.

(** C14 *)
Lemma int_of_spec x : 0 <= x -> INR (int_of x) <= x < INR (int_of x) + 1.
Proof.
  intros H. unfold int_of. destruct (base_Int_part x) as [H1 H2].
  assert (Hz : (0 <= Int_part x)%Z).
  { assert (-1 < Int_part x)%Z; [|lia]. apply lt_IZR. lra. }
  rewrite INR_IZR_INZ, Z2Nat.id by exact Hz. lra.
Qed.

Lemma domain_pad_rejects a vp b st pad :
  (pad < 0 -> domain_pad a vp b st pad = SzErr ValueError) /\
  (0 < pad -> domain_pad a vp b PadOther pad = SzErr ValueError) /\
  domain_pad a vp b st 0 = SzOk (a, vp, b).
Proof.
  unfold domain_pad, Rgtb. split; [|split].
  - intros H. rb. reflexivity.
  - intros H. rb. destruct (pad_counts vp b pad) as [[p0 p1] p2]. reflexivity.
  - rb. reflexivity.
Qed.

Lemma domain_pad_ok a vp b st pad : st <> PadOther -> 0 < pad -> shape_eq a vp -> positive_shape vp ->
  (0 < dz_of vp b) -> (0 < dx_of vp b) -> (adim vp = 3%nat -> 0 < dy_of vp b) ->
  exists a' vp' p0 p1 p2,
    domain_pad a vp b st pad = SzOk (a', vp', padded_bbox (adim vp) b pad) /\
    INR p0 <= pad / dz_of vp b < INR p0 + 1 /\ INR p1 <= pad / dx_of vp b < INR p1 + 1 /\
    (adim vp = 3%nat -> INR p2 <= pad / dy_of vp b < INR p2 + 1) /\ (adim vp <> 3%nat -> p2 = 0%nat) /\
    n0 a' = (p0 + n0 a)%nat /\ n1 a' = (p1 + n1 a + p1)%nat /\ n2 a' = (p2 + n2 a + p2)%nat /\ shape_eq vp' a' /\
    (forall i j k, inr a i j k -> av a' (p0 + i) (p1 + j) (p2 + k) = av a i j k) /\
    (forall i j k, inr vp i j k -> av vp' (p0 + i) (p1 + j) (p2 + k) = av vp i j k) /\
    (st = PadEdge -> forall i j k,
       av a' i j k = av a (Nat.min (i - p0) (n0 a - 1)) (Nat.min (j - p1) (n1 a - 1)) (Nat.min (k - p2) (n2 a - 1)))%nat.
Proof.
  intros Hst Hp Hs Hpos Hdz Hdx Hdy. unfold domain_pad, Rgtb. rb.
  destruct (pad_counts vp b pad) as [[p0 p1] p2] eqn:EC.
  assert (Hpa : positive_shape a).
  { unfold positive_shape in *. destruct Hs as (_ & -> & -> & ->). exact Hpos. }
  assert (E1 : exists a', pad_it st p0 p1 p2 (amax a) a = SzOk a') by (unfold pad_it; destruct st; try congruence; eauto).
  assert (E2 : exists vp', pad_it st p0 p1 p2 (amax vp) vp = SzOk vp') by (unfold pad_it; destruct st; try congruence; eauto).
  destruct E1 as (a' & E1). destruct E2 as (vp' & E2).
  exists a', vp', p0, p1, p2. rewrite E1, E2. cbn [sbind]. split; [reflexivity|].
  unfold pad_counts in EC. injection EC as C0 C1 C2.
  assert (Q : forall d, 0 < d -> 0 <= pad / d) by (intros d Hd; apply Rlt_le, Rdiv_lt_0_compat; assumption).
  split; [rewrite <- C0; apply int_of_spec; auto|]. split; [rewrite <- C1; apply int_of_spec; auto|].
  split; [intros H3; rewrite H3 in C2; cbn [Nat.eqb] in C2; rewrite <- C2; apply int_of_spec; auto|].
  split; [intros H3; destruct (Nat.eqb_spec (adim vp) 3); [congruence|auto]|].
  destruct (pad_it_ok _ _ _ _ _ _ _ E1) as (A1 & A2 & A3 & A4 & _).
  destruct (pad_it_ok _ _ _ _ _ _ _ E2) as (B1 & B2 & B3 & B4 & _).
  split; [exact A2|]. split; [exact A3|]. split; [exact A4|].
  split; [unfold shape_eq; destruct Hs as (-> & -> & -> & ->) in A1, A2, A3, A4; repeat split; congruence|].
  split; [intros i j k Hin; eapply pad_it_inner; eauto|].
  split; [intros i j k Hin; eapply pad_it_inner; eauto|].
  intros -> i j k. apply (pad_it_edge p0 p1 p2 (amax a) a a' i j k Hpa E1).
Qed.

(** C15 *)
Lemma pad_shift b0 b1 nz n : (0 < nz)%nat -> (0 < n)%nat -> b0 < b1 ->
  let dz := (b1 - b0) / INR nz in let pad := INR n * dz in
  linspace (b0 - pad) b1 (n + nz) n = b0 + pad / INR (n + nz - 1) /\
  linspace (b0 - pad) b1 (n + nz) n - (b0 - pad) = pad * (INR (nz + n) / INR (nz + n - 1)) /\
  linspace (b0 - pad) b1 (n + nz) n <> b0 /\
  linspace (b0 - pad) b1 (n + nz) (n + nz - 1) = b1.
Proof.
  intros Hz Hn Hb dz pad. unfold linspace.
  destruct (Nat.eqb_spec (n + nz) 1) as [E|E]; [lia|].
  assert (Hm : INR (n + nz - 1) = INR n + INR nz - 1).
  { rewrite minus_INR by lia. rewrite plus_INR. cbn. ring. }
  assert (Hm' : INR (nz + n - 1) = INR n + INR nz - 1).
  { rewrite minus_INR by lia. rewrite plus_INR. cbn. ring. }
  assert (H1 : 0 < INR nz) by (apply lt_0_INR; exact Hz).
  assert (H2 : 1 <= INR n) by (change 1 with (INR 1); apply le_INR; lia).
  assert (H3 : 0 < INR n + INR nz - 1) by lra.
  assert (Hd : 0 < dz) by (unfold dz; apply Rdiv_lt_0_compat; lra).
  assert (Hpp : 0 < pad) by (unfold pad; nra).
  rewrite Hm, Hm', plus_INR.
  assert (Eb : b1 - b0 = INR nz * dz) by (unfold dz; field; lra).
  assert (E1 : b0 - pad + INR n * ((b1 - (b0 - pad)) / (INR n + INR nz - 1)) = b0 + pad / (INR n + INR nz - 1)).
  { replace (b1 - (b0 - pad)) with (INR nz * dz + pad) by lra. unfold pad. field. lra. }
  split; [exact E1|]. split; [|split].
  - rewrite E1. replace (b0 + pad / (INR n + INR nz - 1) - (b0 - pad)) with (pad + pad / (INR n + INR nz - 1)) by ring.
    field. lra.
  - rewrite E1. intros Ee. assert (0 < pad / (INR n + INR nz - 1)) by (apply Rdiv_lt_0_compat; lra). lra.
  - field. lra.
Qed.

(** C16 *)
Lemma graded_after_gradation a grade elen a' : int_grid a -> 0 <= elen -> 0 < grade ->
  (forall i j k, inr a i j k -> 0 <= av a i j k) ->
  limgrad_converged idR (Z.of_nat (n0 a)) (Z.of_nat (n1 a)) (Z.of_nat (n2 a)) elen grade max_sweeps (flattenF a) ->
  gradation a grade elen = SzOk a' ->
  forall i j k i' j' k', inr a i j k -> inr a i' j' k' -> adjacent (i, j, k) (i', j', k') ->
  Rabs (av a' i j k - av a' i' j' k') <= grade * elen + amin a * sqrt (1 / 10 ^ 9).
Proof.
  intros Hg He Hgr Hp (out & Hc) H.
  destruct (gradation_inv a grade elen a' Hg He Hp H) as [[E _]|(_ & out' & EL & ->)]; [lra|].
  unfold limgrad in EL. rewrite Hc in EL. cbn in EL. injection EL as <-.
  intros i j k i' j' k' Hin Hin' Hadj.
  assert (Hadj' : adjacent (i', j', k') (i, j, k)) by (unfold adjacent in *; rewrite gdist_sym; exact Hadj).
  pose proof (converged_bound idR (fun _ => True) idR_rounding (n0 a) (n1 a) (n2 a) elen grade max_sweeps (flattenF a) out
     (int_grid_valid a Hg) (flattenF_length a) ltac:(apply Forall_forall; auto)
     (flattenF_forall a (fun x => 0 <= x) Hp) He ltac:(lra) Hc) as HB.
  pose proof (HB (i, j, k) (i', j', k') Hin Hin' Hadj) as B1.
  pose proof (HB (i', j', k') (i, j, k) Hin' Hin Hadj') as B2.
  unfold val, pos, ftol_of, idR in B1, B2. unfold reshapeF; cbn [av].
  fold (amin a) in B1, B2. apply Rabs_le_iff. lra.
Qed.

Definition sq2 (x y : R) : garr := mkArr 2 2 2 1 (fun _ j _ => if Nat.eqb j 0 then x else y).
Definition c16_opts : opts := mkOpts (Some 1500) 1 10000 1 1000 0 (1/10) 1 0 1 PadEdge 0 MS.
Definition c16_box : bbox := [0; 2; 0; 1/2].
Definition c16_sizes : garr := clamp 1 10000 (amap2 Rmin (amap (fun v => v / (1000 * 1)) (sq2 1000 1100)) (amap (fun _ => 99999) (sq2 1000 1100))).

Lemma c16_vals i j k : av c16_sizes i j k = if Nat.eqb j 0 then 1 else 11 / 10.
Proof.
  unfold c16_sizes, clamp, amap2, amap, sq2; cbn [av]. unfold Rgtb.
  destruct (Nat.eqb j 0).
  - replace (1000 / (1000 * 1)) with 1 by lra. rewrite Rmin_left by lra. rb. reflexivity.
  - replace (1100 / (1000 * 1)) with (11/10) by lra. rewrite Rmin_left by lra. rb. reflexivity.
Qed.

Lemma c16_flat : flattenF c16_sizes = [1; 1; 11/10; 11/10].
Proof.
  assert (E : flattenF c16_sizes = [av c16_sizes 0 0 0; av c16_sizes 1 0 0; av c16_sizes 0 1 0; av c16_sizes 1 1 0]%nat) by reflexivity.
  rewrite E, !c16_vals. reflexivity.
Qed.

Lemma c16_limgrad : limgrad idR (Z.of_nat 2) (Z.of_nat 2) (Z.of_nat 1) 1 (1/10) max_sweeps [1; 1; 11/10; 11/10] = Some [1; 1; 11/10; 11/10].
Proof.
  apply (fixed_point idR (fun _ => True) idR_rounding 2 2 1).
  - unfold valid_dims; lia.
  - reflexivity.
  - apply Forall_forall; auto.
  - intros x Hx. cbn in Hx. decompose [or] Hx; subst; try lra; contradiction.
  - lra.
  - lra.
  - intros [[i j] k] [[i' j'] k'] (Hi & Hj & Hk) (Hi' & Hj' & Hk') _.
    assert (Hf : 0 <= ftol_of idR [1; 1; 11/10; 11/10]).
    { apply (ftol_nonneg idR (fun _ => True) idR_rounding); [discriminate|].
      intros x Hx. cbn in Hx. decompose [or] Hx; subst; try lra; contradiction. }
    assert (k = 0 /\ k' = 0)%nat as [-> ->] by lia. unfold val, pos, idR in *.
    assert (V : forall a c, (a < 2)%nat -> (c < 2)%nat ->
       nth (a + 2 * (c + 2 * 0)) [1; 1; 11/10; 11/10] 0 = if Nat.eqb c 0 then 1 else 11/10).
    { intros a c Ha Hc0. assert (a = 0 \/ a = 1)%nat as [->| ->] by lia; assert (c = 0 \/ c = 1)%nat as [->| ->] by lia; reflexivity. }
    rewrite (V i j Hi Hj), (V i' j' Hi' Hj'). destruct (Nat.eqb j 0), (Nat.eqb j' 0); lra.
Qed.

Lemma c16_prepare : prepare_vp c16_opts (sq2 1000 1100) = SzOk (sq2 1000 1100).
Proof.
  unfold prepare_vp, c16_opts. cbn [o_vp_water o_units convert_units]. apply water_row0_kept.
    intros i j k _ _. unfold sq2; cbn [av]. destruct (Nat.eqb j 0); lra.
Qed.

Lemma c16_get_sizing : get_sizing ufilter c16_opts c16_box (sq2 1000 1100) =
     SzOk (reshapeF 2 2 2 1 [1; 1; 11/10; 11/10], sq2 1000 1100, c16_box).
Proof.
unfold get_sizing. rewrite c16_prepare. cbn [sbind]. unfold bbox_dim, c16_box. cbn [length Nat.eqb].
    unfold initial_size, c16_opts. cbn [o_wl o_grad o_hmin o_hmax o_cr_max o_dt o_space_order o_grade o_pad_style o_domain_pad o_freq].
    unfold Rgtb at 1. rb. cbn [orb].
    unfold wavelength_sizing. rb. cbn [sbind]. unfold gradient_sizing. rb. cbn [sbind].
    rewrite (courant_off ufilter _ _ 1 0 1 (or_intror (or_introl eq_refl))). cbn [sbind].
    fold c16_sizes. unfold gradation. rb. rewrite c16_flat. cbn [bget nth n0 n1 n2 adim c16_sizes clamp amap amap2 sq2].
    replace (INR 2) with 2 by (cbn; ring). replace ((2 - 0) / 2) with 1 by lra.
    change (fun x : R => x) with idR. rewrite c16_limgrad. cbn [sbind].
    unfold domain_pad. unfold Rgtb. rb. reflexivity.
Qed.

Lemma x_gradient_exceeds :
  exists o b vp a4 vp4 b4,
    int_grid vp /\ 0 < o_hmin o <= o_hmax o /\ 0 < o_grade o /\ o_dt o = 0 /\
    get_sizing ufilter o b vp = SzOk (a4, vp4, b4) /\ inr a4 0 0 0 /\ inr a4 0 1 0 /\
    let dx := linspace (bget b4 2) (bget b4 3) (n1 a4) 1 - linspace (bget b4 2) (bget b4 3) (n1 a4) 0 in
    0 < dx /\ o_grade o * dx < Rabs (av a4 0%nat 1%nat 0%nat - av a4 0%nat 0%nat 0%nat).
Proof.
  exists c16_opts, c16_box, (sq2 1000 1100).
  pose proof c16_get_sizing as EG.
  eexists. eexists. eexists. split; [unfold int_grid; cbn; lia|].
  unfold c16_opts; cbn [o_hmin o_hmax o_grade o_dt]. split; [lra|]. split; [lra|]. split; [reflexivity|].
  split; [exact EG|]. split; [unfold inr; cbn; lia|]. split; [unfold inr; cbn; lia|].
  cbn. split; [lra|]. rewrite Rabs_right by lra. lra.
Qed.

(** C18 *)
Lemma gradient_band w grad : positive_shape w -> 0 < grad ->
  (forall i j k, inr w i j k -> 0 <= av w i j k) -> 0 < amax w ->
  exists s, gradient_of_variance w grad = SzOk s /\ shape_eq s w /\
    (forall i j k, inr w i j k -> grad / (11 / 10) <= av s i j k <= 10 * grad) /\
    (forall i j k, inr w i j k -> av w i j k = amin w -> av s i j k = 10 * grad).
Proof.
  intros Hp Hg Hnn Hmx. unfold gradient_of_variance. rewrite (proj2 (Reqb_false (amax w) 0)) by lra.
  set (mx := amax w) in *. set (w1 := amap (fun v => v / mx) w).
  eexists. split; [reflexivity|]. split; [repeat split|].
  assert (Hp1 : positive_shape w1) by exact Hp.
  assert (Hmin : forall i j k, inr w i j k -> amin w1 <= av w1 i j k) by (intros i j k Hin; apply amin_le; exact Hin).
  destruct (amin_attained w1 Hp1) as (i0 & j0 & k0 & Hin0 & E0).
  assert (H01 : forall i j k, inr w i j k -> 0 <= av w1 i j k <= 1).
  { intros i j k Hin. unfold w1, amap; cbn [av]. pose proof (Hnn i j k Hin). pose proof (amax_ge w i j k Hin).
    fold mx in H0. split.
    - apply Rmult_le_pos; [exact H|]. apply Rlt_le, Rinv_0_lt_compat; exact Hmx.
    - apply Rmult_le_reg_r with mx; [exact Hmx|]. unfold Rdiv. rewrite Rmult_assoc, Rinv_l by lra. lra. }
  assert (Hm0 : 0 <= amin w1) by (rewrite <- E0; apply H01; exact Hin0).
  split.
  - intros i j k Hin. unfold amap at 1 3. cbn [av]. unfold amap at 1 2; cbn [av].
    pose proof (H01 i j k Hin). pose proof (Hmin i j k Hin).
    set (t := av w1 i j k - amin w1). assert (Ht : 0 <= t <= 1) by (unfold t; lra).
    split.
    + unfold Rdiv. apply Rmult_le_compat_l; [lra|]. apply Rinv_le_contravar; lra.
    + apply Rmult_le_reg_r with (t + 1/10); [lra|]. unfold Rdiv. rewrite Rmult_assoc, Rinv_l by lra. nra.
  - intros i j k Hin Hmi. unfold amap at 1; cbn [av]. unfold amap at 1; cbn [av].
    assert (Ea : av w1 i j k = amin w1).
    { apply Rle_antisym; [|apply Hmin; exact Hin]. rewrite <- E0. unfold w1, amap; cbn [av]. rewrite Hmi.
      unfold Rdiv. apply Rmult_le_compat_r; [apply Rlt_le, Rinv_0_lt_compat; exact Hmx|]. apply amin_le. exact Hin0. }
    rewrite Ea. replace (amin w1 - amin w1 + 1 / 10) with (1 / 10) by ring. field.
Qed.

Lemma gradient_constant_fails (vp : garr) c grad : positive_shape vp -> 0 < grad ->
  (forall i j k, inr vp i j k -> av vp i j k = c) ->
  (* the mean filter maps constant fields to themselves *)
  (forall x d, (forall i j k, inr x i j k -> av x i j k = d) ->
     shape_eq (ufilter x) x /\ forall i j k, inr x i j k -> av (ufilter x) i j k = d) ->
  gradient_sizing ufilter vp grad = SzNonFinite.
Proof.
  intros Hp Hg Hc Hf. unfold gradient_sizing. rb.
  unfold gradient_of_variance. 
  assert (Hz : amax (window_variance ufilter vp) = 0).
  { destruct (Hf vp c Hc) as [S1 V1].
    destruct (Hf (amap (fun v => v * v) vp) (c * c)) as [S2 V2].
    { intros i j k Hin. unfold amap; cbn [av]. rewrite Hc by exact Hin. reflexivity. }
    assert (Sw : shape_eq (window_variance ufilter vp) vp) by exact S2.
    assert (Hpw : positive_shape (window_variance ufilter vp)).
    { unfold positive_shape in *. destruct Sw as (_ & -> & -> & ->). exact Hp. }
    destruct (amax_attained _ Hpw) as (i & j & k & Hin & <-).
    assert (Hin' : inr vp i j k) by (eapply shape_eq_inr; [exact Sw|exact Hin]).
    unfold window_variance, amap2; cbn [av]. rewrite V1 by exact Hin'. rewrite V2 by exact Hin'. ring. }
  rewrite Hz. rb. reflexivity.
Qed.
End P.

Lemma courant_succeeds vp a cr dt so : 0 < cr -> 0 < dt -> 1 <= so -> (forall i j k, inr a i j k -> 0 < av a i j k) ->
  exists a', courant vp a cr dt so = SzOk a' /\ shape_eq a' (mkArr (adim vp) (n0 vp) (n1 vp) (n2 vp) (av a')).
Proof.
  intros H1 H2 H3 Hp. unfold courant. rb. cbn [orb].
  assert (E : existsb (fun x => Reqb x 0) (flattenF a) = false).
  { destruct (existsb _ _) eqn:E; [|reflexivity]. apply existsb_exists in E. destruct E as (x & Hx & E).
    apply Reqb_true in E. pose proof (flattenF_forall a (fun x => 0 < x) Hp x Hx). cbn in H. lra. }
  rewrite E. eexists. split; [reflexivity|]. repeat split.
Qed.

Lemma courant_parameters vp a cr dt so :
  ((cr = 0 \/ dt = 0 \/ so = 0) -> courant vp a cr dt so = SzOk a) /\
  (cr <> 0 -> dt <> 0 -> so <> 0 -> (cr < 0 \/ dt < 0 \/ so < 1) -> courant vp a cr dt so = SzErr ValueError).
Proof.
  split; [apply (courant_off (fun a => a))|]. intros H1 H2 H3 H. unfold courant.
  rewrite (proj2 (Reqb_false cr 0) H1), (proj2 (Reqb_false dt 0) H2), (proj2 (Reqb_false so 0) H3). cbn [orb].
  destruct (Rltb cr 0) eqn:A; [reflexivity|]. destruct (Rltb dt 0) eqn:B; [reflexivity|].
  apply Rltb_false in A, B. rewrite (proj2 (Rltb_true so 1)) by lra. reflexivity.
Qed.

Lemma linspace_first b0 b1 nz : linspace b0 b1 nz 0 = b0.
Proof. unfold linspace. destruct (Nat.eqb nz 1); cbn; ring. Qed.
