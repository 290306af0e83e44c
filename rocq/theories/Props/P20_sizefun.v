(** C83, C84: the function a SizeFunction evaluates.  [ufilter]: scipy's uniform_filter (arbitrary).  [rnd]: rounding of the
    grid coordinates to float32 (arbitrary unless stated).  Vocabulary: Spec/Interp.v. *)
From Coq Require Import List ZArith Reals Lia Lra Bool.
From Verif Require Import Model.Base Model.FastHJ Model.Sizing Model.Interp Spec.Grid Spec.Interp
  Proofs.ListAux Proofs.GridIndex Proofs.Limgrad Proofs.LimgradMain Proofs.SizingArr Proofs.SizingMain Proofs.SizingMore Proofs.InterpProofs.
Import ListNotations.
Local Open Scope R_scope.

(** the coordinates of the samples: n points equally spaced between lo and hi, each rounded *)
Definition samples (rnd : R -> R) (lo hi : R) (n : nat) (g : list R) : Prop :=
  length g = n /\ forall i, (i < n)%nat -> nth i g 0 = rnd (lo + INR i * ((hi - lo) / INR (n - 1))).
(** grid vectors of a 2D or 3D array over a box *)
Definition sample_grid (rnd : R -> R) (b : list R) (a : garr) (gs : list (list R)) : Prop :=
  match gs with
  | [g0; g1] => adim a <> 3%nat /\ samples rnd (bget b 0) (bget b 1) (n0 a) g0 /\ samples rnd (bget b 2) (bget b 3) (n1 a) g1
  | [g0; g1; g2] => adim a = 3%nat /\ samples rnd (bget b 0) (bget b 1) (n0 a) g0 /\ samples rnd (bget b 2) (bget b 3) (n1 a) g1 /\
      samples rnd (bget b 4) (bget b 5) (n2 a) g2
  | _ => False
  end.
(** sizes by multi-index *)
Definition size_at (a : garr) (ks : list nat) : R :=
  match ks with [i; j] => av a i j 0%nat | [i; j; k] => av a i j k | _ => 0 end.

Lemma grid_vec_samples : forall rnd lo hi n, (2 <= n)%nat -> samples rnd lo hi n (grid_vec rnd lo hi n).
Proof.
  intros rnd lo hi n Hn. unfold samples, grid_vec. split; [rewrite map_length, seq_length; reflexivity|]. intros i Hi.
  rewrite nth_indep with (d' := rnd (linspace lo hi n 0%nat)) by (rewrite map_length, seq_length; exact Hi).
  rewrite (map_nth (fun i => rnd (linspace lo hi n i))), seq_nth by exact Hi. unfold linspace.
  replace (Nat.eqb n 1) with false by (symmetry; apply Nat.eqb_neq; lia). reflexivity.
Qed.

Lemma build_inv : forall rnd a b f, build_interpolant rnd a b = SzOk f ->
  exists gs, gs = grid_vecs rnd b a /\ Forall is_axis gs /\ sample_grid rnd b a gs /\ f = interp gs (arr_at a).
Proof.
  intros rnd a b f H. unfold build_interpolant in H. set (gs := grid_vecs rnd b a) in *.
  destruct (forallb increasing gs) eqn:E1; cbn [negb] in H; [|discriminate].
  destruct (existsb (fun g => (length g <? 2)%nat) gs) eqn:E2; [discriminate|]. injection H as <-.
  exists gs. split; [reflexivity|]. rewrite forallb_forall in E1.
  assert (forall g, In g gs -> (2 <= length g)%nat) as HL.
  { intros g Hg. destruct (Nat.ltb_spec (length g) 2) as [Q|Q]; [|exact Q]. exfalso.
    assert (existsb (fun g => (length g <? 2)%nat) gs = true) as C by (apply existsb_exists; exists g; split; [exact Hg|apply Nat.ltb_lt; exact Q]).
    congruence. }
  split; [|split; [|reflexivity]].
  - apply Forall_forall. intros g Hg. apply increasing_axis; [apply E1; exact Hg|apply HL; exact Hg].
  - unfold gs, grid_vecs in *. destruct (Nat.eqb_spec (adim a) 3) as [E|E]; cbn [app sample_grid].
    + pose proof (HL _ (or_introl eq_refl)) as L0. pose proof (HL _ (or_intror (or_introl eq_refl))) as L1.
      pose proof (HL _ (or_intror (or_intror (or_introl eq_refl)))) as L2.
      unfold grid_vec in L0, L1, L2. rewrite map_length, seq_length in L0, L1, L2.
      split; [exact E|]. repeat split; apply grid_vec_samples; assumption.
    + pose proof (HL _ (or_introl eq_refl)) as L0. pose proof (HL _ (or_intror (or_introl eq_refl))) as L1.
      unfold grid_vec in L0, L1. rewrite map_length, seq_length in L0, L1.
      split; [exact E|]. split; apply grid_vec_samples; assumption.
Qed.
Lemma size_at_ok : forall rnd b a gs ks, sample_grid rnd b a gs -> in_range gs ks -> arr_at a ks = size_at a ks.
Proof.
  intros rnd b a gs ks HG HR. unfold arr_at, size_at.
  destruct gs as [|g0 [|g1 [|g2 [|g3 gs]]]]; cbn in HG; try contradiction.
  - inversion HR as [|? ? ? ? _ HR1]; subst. inversion HR1 as [|? ? ? ? _ HR2]; subst. inversion HR2; subst. reflexivity.
  - inversion HR as [|? ? ? ? _ HR1]; subst. inversion HR1 as [|? ? ? ? _ HR2]; subst. inversion HR2 as [|? ? ? ? _ HR3]; subst. inversion HR3; subst. reflexivity.
Qed.
Lemma interp_ext : forall gs, Forall is_axis gs -> forall f1 f2 x, length x = length gs ->
  (forall ks, in_range gs ks -> f1 ks = f2 ks) -> interp gs f1 x = interp gs f2 x.
Proof.
  induction gs as [|g gs IH]; intros HA f1 f2 x HL HE; destruct x as [|x0 x]; try discriminate.
  - apply HE. constructor.
  - inversion HA as [|? ? HAg HAgs]; subst. rewrite !interp_cons. pose proof (cell_range g HAg x0). unfold lerp.
    assert (length x = length gs) as HL' by (cbn in HL; lia).
    rewrite (IH HAgs (fun k => f1 (cell_of g x0 :: k)) (fun k => f2 (cell_of g x0 :: k)) x HL') by (intros ks Hk; apply HE; constructor; [lia|exact Hk]).
    rewrite (IH HAgs (fun k => f1 (S (cell_of g x0) :: k)) (fun k => f2 (S (cell_of g x0) :: k)) x HL') by (intros ks Hk; apply HE; constructor; [lia|exact Hk]).
    reflexivity.
Qed.

Lemma size_function_inv : forall ufilter rnd o b vp b4 f h, size_function ufilter rnd o b vp = SzOk (b4, f, h) ->
  exists a4 vp4, get_sizing ufilter o b vp = SzOk (a4, vp4, b4) /\ build_interpolant rnd a4 b4 = SzOk f /\ h = o_hmin o.
Proof.
  intros ufilter rnd o b vp b4 f h H. unfold size_function in H. apply sbind_ok in H. destruct H as ([[a4 vp4] b4'] & H1 & H).
  apply sbind_ok in H. destruct H as (f' & H2 & H). injection H as <- <- <-. eauto.
Qed.

(** C83: what the call returns, and the function it contains *)
Theorem C83_size_function : forall ufilter rnd o b vp b4 f h,
  size_function ufilter rnd o b vp = SzOk (b4, f, h) ->
  exists a4 vp4 gs, get_sizing ufilter o b vp = SzOk (a4, vp4, b4) /\ h = o_hmin o /\
    sample_grid rnd b4 a4 gs /\ Forall is_axis gs /\
    (forall ks, in_range gs ks -> f (node_at gs ks) = size_at a4 ks) /\
    (forall ks x, in_cell gs ks x -> f x = multilinear gs (size_at a4) ks x).
Proof.
  intros ufilter rnd o b vp b4 f h H. apply size_function_inv in H. destruct H as (a4 & vp4 & H1 & H2 & ->).
  destruct (build_inv _ _ _ _ H2) as (gs & Egs & HA & HG & ->). exists a4, vp4, gs.
  split; [exact H1|]. split; [reflexivity|]. split; [exact HG|]. split; [exact HA|]. split.
  - intros ks HR. rewrite interp_node by assumption. eapply size_at_ok; eassumption.
  - intros ks x HC. rewrite (interp_ext gs HA (arr_at a4) (size_at a4)).
    + apply interp_multilinear; assumption.
    + clear - HC. induction HC; cbn; congruence.
    + intros k Hk. eapply size_at_ok; eassumption.
Qed.
Print Assumptions C83_size_function.

Lemma get_sizing_positive : forall ufilter o b vp a4 vp4 b4, int_grid vp -> get_sizing ufilter o b vp = SzOk (a4, vp4, b4) ->
  (0 < n0 a4)%nat /\ (0 < n1 a4)%nat /\ (0 < n2 a4)%nat /\ adim a4 = adim vp.
Proof.
  intros ufilter o b vp a4 vp4 b4 (P0 & P1 & P2 & _) H. apply get_sizing_inv in H.
  destruct H as (vp1 & a0 & a2 & a3 & _ & _ & _ & _ & _ & HD & _ & _ & _ & (S0 & S1 & S2 & S3)).
  unfold domain_pad in HD. destruct (Rltb (o_domain_pad o) 0); [discriminate|]. destruct (Rgtb (o_domain_pad o) 0).
  - destruct (pad_counts vp1 b (o_domain_pad o)) as [[p0 p1] p2]. apply sbind_ok in HD. destruct HD as (x & Hx & HD).
    apply sbind_ok in HD. destruct HD as (y & Hy & HD). injection HD as <- _ _. apply pad_it_ok in Hx. destruct Hx as (E0 & E1 & E2 & E3 & _).
    repeat split; lia || congruence.
  - injection HD as <- _ _. repeat split; lia || congruence.
Qed.
Lemma in_range_inr : forall rnd b a gs ks, sample_grid rnd b a gs -> (0 < n2 a)%nat -> in_range gs ks -> exists i j k, inr a i j k /\ size_at a ks = av a i j k.
Proof.
  intros rnd b a gs ks HG HP HR. unfold inr, size_at.
  destruct gs as [|g0 [|g1 [|g2 [|g3 gs]]]]; cbn in HG; try contradiction.
  - destruct HG as (_ & (L0 & _) & (L1 & _)). inversion HR as [|? ? k0 ? K0 HR1]; subst. inversion HR1 as [|? ? k1 ? K1 HR2]; subst. inversion HR2; subst.
    exists k0, k1, 0%nat. repeat split; lia.
  - destruct HG as (_ & (L0 & _) & (L1 & _) & (L2 & _)). inversion HR as [|? ? k0 ? K0 HR1]; subst. inversion HR1 as [|? ? k1 ? K1 HR2]; subst.
    inversion HR2 as [|? ? k2 ? K2 HR3]; subst. inversion HR3; subst. exists k0, k1, k2. repeat split; lia.
Qed.

(** C83: between the samples the sizes stay between hmin and hmax (no timestep given) *)
Theorem C83_between_hmin_and_hmax : forall ufilter rnd o b vp b4 f h,
  int_grid vp -> bget b 0 <= bget b 1 -> 0 <= o_hmin o <= o_hmax o ->
  (o_dt o = 0 \/ o_cr_max o = 0 \/ o_space_order o = 0) ->
  size_function ufilter rnd o b vp = SzOk (b4, f, h) ->
  exists a4 vp4 gs, get_sizing ufilter o b vp = SzOk (a4, vp4, b4) /\ sample_grid rnd b4 a4 gs /\ forall x, covered gs x -> o_hmin o <= f x <= o_hmax o.
Proof.
  intros ufilter rnd o b vp b4 f h HI HB HH HD H. apply size_function_inv in H. destruct H as (a4 & vp4 & H1 & H2 & ->).
  destruct (build_inv _ _ _ _ H2) as (gs & Egs & HA & HG & ->). exists a4, vp4, gs. split; [exact H1|]. split; [exact HG|]. intros x HC.
  apply interp_bounds; [exact HA|exact HC|]. intros ks Hk. rewrite (size_at_ok _ _ _ _ _ HG Hk).
  destruct (get_sizing_positive _ _ _ _ _ _ _ HI H1) as (_ & _ & P2 & _).
  destruct (in_range_inr _ _ _ _ _ HG P2 Hk) as (i & j & k & Hin & ->).
  eapply (sizes_in_range ufilter o b vp); eassumption.
Qed.
Print Assumptions C83_between_hmin_and_hmax.
(** and, whatever the timestep, never below the declared hmin *)
Theorem C83_never_below_hmin : forall ufilter rnd o b vp b4 f h,
  int_grid vp -> bget b 0 <= bget b 1 -> 0 < o_hmin o <= o_hmax o -> (0 < adim vp)%nat ->
  size_function ufilter rnd o b vp = SzOk (b4, f, h) ->
  exists a4 vp4 gs, get_sizing ufilter o b vp = SzOk (a4, vp4, b4) /\ sample_grid rnd b4 a4 gs /\ forall x, covered gs x -> h <= f x.
Proof.
  intros ufilter rnd o b vp b4 f h HI HB HH HD H. apply size_function_inv in H. destruct H as (a4 & vp4 & H1 & H2 & ->).
  destruct (build_inv _ _ _ _ H2) as (gs & Egs & HA & HG & ->). exists a4, vp4, gs. split; [exact H1|]. split; [exact HG|]. intros x HC.
  destruct (get_sizing_positive _ _ _ _ _ _ _ HI H1) as (_ & _ & P2 & _).
  apply (interp_bounds gs HA (arr_at a4) x (o_hmin o) (amax a4) HC). intros ks Hk. rewrite (size_at_ok _ _ _ _ _ HG Hk).
  destruct (in_range_inr _ _ _ _ _ HG P2 Hk) as (i & j & k & Hin & ->). split.
  - eapply (sizes_above_hmin ufilter o b vp); eassumption.
  - apply amax_ge. exact Hin.
Qed.
Print Assumptions C83_never_below_hmin.

Lemma samples_ends : forall lo hi n g, samples (fun x => x) lo hi n g -> (2 <= n)%nat -> nth 0 g 0 = lo /\ nth (length g - 1) g 0 = hi.
Proof.
  intros lo hi n g (HL & HV) Hn. rewrite HL. split.
  - rewrite HV by lia. change (INR 0) with 0. ring.
  - rewrite HV by lia. assert (INR (n - 1) <> 0) by (apply not_0_INR; lia). field. assumption.
Qed.
(** with exact grid coordinates, "covered" is the returned box: no size in the box is below hmin or above hmax *)
Theorem C83_in_the_box : forall ufilter o b vp b4 f h,
  int_grid vp -> bget b 0 <= bget b 1 -> 0 <= o_hmin o <= o_hmax o ->
  (o_dt o = 0 \/ o_cr_max o = 0 \/ o_space_order o = 0) ->
  size_function ufilter (fun x => x) o b vp = SzOk (b4, f, h) ->
  (adim vp <> 3%nat -> forall z x, bget b4 0 <= z <= bget b4 1 -> bget b4 2 <= x <= bget b4 3 -> o_hmin o <= f [z; x] <= o_hmax o) /\
  (adim vp = 3%nat -> forall z x y, bget b4 0 <= z <= bget b4 1 -> bget b4 2 <= x <= bget b4 3 -> bget b4 4 <= y <= bget b4 5 ->
     o_hmin o <= f [z; x; y] <= o_hmax o).
Proof.
  intros ufilter o b vp b4 f h HI HB HH HD H. pose proof H as H'. apply size_function_inv in H'. destruct H' as (a4 & vp4 & H1 & H2 & _).
  destruct (build_inv _ _ _ _ H2) as (gs & Egs & HA & HG & Ef).
  destruct (get_sizing_positive _ _ _ _ _ _ _ HI H1) as (_ & _ & P2 & PD).
  assert (forall x, covered gs x -> o_hmin o <= f x <= o_hmax o) as HK.
  { destruct (C83_between_hmin_and_hmax _ _ _ _ _ _ _ _ HI HB HH HD H) as (a4' & vp4' & gs' & G1 & G2 & G3).
    rewrite H1 in G1. injection G1 as <- <-. assert (gs' = gs) as -> ; [|exact G3].
    assert (forall lo hi n g g', samples (fun x => x) lo hi n g -> samples (fun x => x) lo hi n g' -> g = g') as HU.
    { intros lo hi n g g' (L & V) (L' & V'). apply (nth_ext _ _ 0 0); [congruence|]. intros i Hi. rewrite V, V' by lia. reflexivity. }
    destruct gs as [|g0 [|g1 [|g2 [|g3 gs]]]]; cbn [sample_grid] in HG; try contradiction;
      destruct gs' as [|g0' [|g1' [|g2' [|g3' gs']]]]; cbn [sample_grid] in G2; try contradiction; try tauto.
    - destruct HG as (_ & A & B). destruct G2 as (_ & A' & B'). repeat f_equal; eapply HU; eassumption.
    - destruct HG as (_ & A & B & C). destruct G2 as (_ & A' & B' & C'). repeat f_equal; eapply HU; eassumption. }
  split; intros Hd.
  - intros z x Hz Hx. apply HK. rewrite <- PD in Hd.
    destruct gs as [|g0 [|g1 [|g2 [|g3 gs]]]]; cbn [sample_grid] in HG; try contradiction; try tauto.
    destruct HG as (_ & M0 & M1). inversion HA as [|? ? A0 HA1]; subst. inversion HA1 as [|? ? A1 _]; subst.
    destruct (samples_ends _ _ _ _ M0 ltac:(destruct M0 as [<- _]; apply A0)) as (E0 & E1).
    destruct (samples_ends _ _ _ _ M1 ltac:(destruct M1 as [<- _]; apply A1)) as (E2 & E3).
    apply cv_cons; [rewrite E0, E1; exact Hz|]. apply cv_cons; [rewrite E2, E3; exact Hx|]. apply cv_nil.
  - intros z x y Hz Hx Hy. apply HK. rewrite <- PD in Hd.
    destruct gs as [|g0 [|g1 [|g2 [|g3 gs]]]]; cbn [sample_grid] in HG; try contradiction; try tauto.
    destruct HG as (_ & M0 & M1 & M2). inversion HA as [|? ? A0 HA1]; subst. inversion HA1 as [|? ? A1 HA2]; subst. inversion HA2 as [|? ? A2 _]; subst.
    destruct (samples_ends _ _ _ _ M0 ltac:(destruct M0 as [<- _]; apply A0)) as (E0 & E1).
    destruct (samples_ends _ _ _ _ M1 ltac:(destruct M1 as [<- _]; apply A1)) as (E2 & E3).
    destruct (samples_ends _ _ _ _ M2 ltac:(destruct M2 as [<- _]; apply A2)) as (E4 & E5).
    apply cv_cons; [rewrite E0, E1; exact Hz|]. apply cv_cons; [rewrite E2, E3; exact Hx|]. apply cv_cons; [rewrite E4, E5; exact Hy|]. apply cv_nil.
Qed.
Print Assumptions C83_in_the_box.

(** the size function of the C16 example: sizes 1 at x = 0 and 1.1 at x = 1/2 *)
Lemma c16_size_function : forall ufilter, exists f, size_function ufilter (fun x => x) c16_opts c16_box (sq2 1000 1100) = SzOk (c16_box, f, 1) /\
  f = interp [[0; 2]; [0; 1/2]] (arr_at (reshapeF 2 2 2 1 [1; 1; 11/10; 11/10])).
Proof.
  intros ufilter. eexists. split; [|reflexivity]. unfold size_function. rewrite c16_get_sizing. cbn [sbind].
  set (a := reshapeF 2 2 2 1 [1; 1; 11/10; 11/10]).
  assert (grid_vecs (fun x => x) c16_box a = [[0; 2]; [0; 1/2]]) as E.
  { unfold grid_vecs, a, grid_vec, c16_box, bget, linspace. cbn [reshapeF adim n0 n1 n2 Nat.eqb app seq map nth].
    assert (INR (2 - 1) = 1) as -> by reflexivity. assert (INR 0 = 0) as -> by reflexivity. assert (INR 1 = 1) as -> by reflexivity.
    repeat (f_equal; try lra). }
  unfold build_interpolant. rewrite E. cbn [forallb increasing].
  replace (Rltb 0 2) with true by (symmetry; apply Rltb_true; lra). replace (Rltb 0 (1/2)) with true by (symmetry; apply Rltb_true; lra).
  cbn [andb negb existsb length Nat.ltb Nat.leb orb sbind]. reflexivity.
Qed.
Lemma c16_value : forall z x, interp [[0; 2]; [0; 1/2]] (arr_at (reshapeF 2 2 2 1 [1; 1; 11/10; 11/10])) [z; x] = 1 + x / 5.
Proof.
  intros z x. cbn [interp]. unfold cell_of. cbn [length]. rewrite !Nat.min_0_r. unfold weight, arr_at. cbn [nth reshapeF av Nat.add Nat.mul]. field.
Qed.
(** C83: outside the box the function extrapolates: sizes below hmin, above hmax and even negative occur *)
Theorem C83_outside_refuted : forall ufilter, exists o b vp f, int_grid vp /\ 0 < o_hmin o <= o_hmax o /\ o_dt o = 0 /\
  size_function ufilter (fun x => x) o b vp = SzOk (b, f, o_hmin o) /\
  (forall eps, 0 < eps -> f [bget b 0; bget b 2 - eps] < o_hmin o) /\
  (exists x, f [bget b 0; x] < 0) /\ (exists x, o_hmax o < f [bget b 0; x]).
Proof.
  intros ufilter. destruct (c16_size_function ufilter) as (f & H1 & H2). exists c16_opts, c16_box, (sq2 1000 1100), f.
  split; [unfold int_grid; cbn; lia|]. unfold c16_opts at 1 2 3 4; cbn [o_hmin o_hmax o_dt]. split; [lra|]. split; [reflexivity|].
  split; [exact H1|]. rewrite H2. unfold c16_box, c16_opts, bget; cbn [nth o_hmin o_hmax].
  split; [|split].
  - intros eps He. rewrite c16_value. lra.
  - exists (-10). rewrite c16_value. lra.
  - exists 1000000. rewrite c16_value. lra.
Qed.
Print Assumptions C83_outside_refuted.

(** the hypotheses of the theorems above are met *)
Example C83_case : exists f, size_function (fun a => a) (fun x => x) c16_opts c16_box (sq2 1000 1100) = SzOk (c16_box, f, 1) /\
  int_grid (sq2 1000 1100) /\ 0 < o_hmin c16_opts <= o_hmax c16_opts /\ o_dt c16_opts = 0 /\ (0 < adim (sq2 1000 1100))%nat /\
  in_cell [[0; 2]; [0; 1/2]] [0; 0]%nat [1; 1/4] /\ f [1; 1/4] = 21/20.
Proof.
  destruct (c16_size_function (fun a => a)) as (f & H1 & H2). exists f. split; [exact H1|]. split; [unfold int_grid; cbn; lia|].
  unfold c16_opts; cbn [o_hmin o_hmax o_dt]. split; [lra|]. split; [reflexivity|]. split; [cbn; lia|]. split.
  - repeat (constructor; cbn; try lia; try lra).
  - rewrite H2, c16_value. lra.
Qed.

(** C84 *)
Lemma samples_gap : forall lo hi n g i, samples (fun x => x) lo hi n g -> (S i < n)%nat -> nth (S i) g 0 - nth i g 0 = (hi - lo) / INR (n - 1).
Proof. intros lo hi n g i (HL & HV) Hi. rewrite !HV by lia. rewrite S_INR. ring. Qed.

(** the size function is graded if the limiter converged, with the constant (grade * elen + tol) / spacing along each axis:
    elen the number the limiter was given, spacing the true distance of the samples, tol the limiter's tolerance *)
Theorem C84_graded : forall ufilter o b vp b4 f h,
  int_grid vp -> bget b 0 <= bget b 1 -> 0 < o_hmin o <= o_hmax o -> (0 < adim vp)%nat -> 0 < o_grade o -> o_domain_pad o = 0 ->
  size_function ufilter (fun x => x) o b vp = SzOk (b4, f, h) ->
  exists ungraded a4 gs, sample_grid (fun x => x) b4 a4 gs /\ b4 = b /\ n0 a4 = n0 vp /\ n1 a4 = n1 vp /\ n2 a4 = n2 vp /\
    let elen := (bget b 1 - bget b 0) / INR (n0 vp) in
    gradation ungraded (o_grade o) elen = SzOk a4 /\
    (limgrad_converged idR (Z.of_nat (n0 vp)) (Z.of_nat (n1 vp)) (Z.of_nat (n2 vp)) elen (o_grade o) max_sweeps (flattenF ungraded) ->
     forall x y, covered gs x -> covered gs y ->
     let step := o_grade o * elen + amin ungraded * sqrt (1 / 10 ^ 9) in
     Rabs (f x - f y) <= weighted_l1 [step / ((bget b 1 - bget b 0) / INR (n0 vp - 1)); step / ((bget b 3 - bget b 2) / INR (n1 vp - 1));
                                      step / ((bget b 5 - bget b 4) / INR (n2 vp - 1))] x y).
Proof.
  intros ufilter o b vp b4 f h HI HB HH HD HG HP H. apply size_function_inv in H. destruct H as (a4 & vp4 & H1 & H2 & ->).
  destruct (build_inv _ _ _ _ H2) as (gs & Egs & HA & HGr & ->).
  pose proof H1 as H1'. apply get_sizing_inv in H1.
  destruct H1 as (vp1 & a0 & a2 & a3 & E1 & _ & E2 & E3 & E4 & E5 & S1 & S0 & S2 & S3).
  unfold domain_pad in E5. rewrite HP in E5.
  assert (Rltb 0 0 = false) as EF by (apply Rltb_false; lra). unfold Rgtb in E5. rewrite EF in E5. injection E5 as -> _ <-.
  exists a2, a4, gs. split; [exact HGr|]. split; [reflexivity|].
  destruct S3 as (Sd & Sn0 & Sn1 & Sn2). split; [exact Sn0|]. split; [exact Sn1|]. split; [exact Sn2|].
  assert (n0 vp1 = n0 vp) as EN by apply S1. rewrite EN in E4. cbv zeta. split; [exact E4|].
  intros HC x y HX HY. set (elen := (bget b 1 - bget b 0) / INR (n0 vp)) in *. set (stp := o_grade o * elen + amin a2 * sqrt (1 / 10 ^ 9)).
  assert (int_grid a2) as HI2 by (eapply shape_int_grid; [apply shape_eq_sym; exact S2|exact HI]).
  assert (0 <= elen) as He by (apply (elen_nonneg b vp); [apply HI|exact HB]).
  assert (forall i j k, o_hmin o <= av a2 i j k) as Hpos.
  { intros i j k. pose proof (clamp_bounds (o_hmin o) (o_hmax o) a0 i j k ltac:(lra)) as Hc.
    destruct (courant_on_inv _ _ _ _ _ _ E3) as [[_ ->]|(Hcr & Hdt & Hso & _)]; [tauto|].
    destruct (courant_point _ _ _ _ _ _ i j k E3 Hcr Hdt Hso) as [Hle _]; [destruct S1 as (-> & _); exact HD|lra|lra]. }
  destruct S2 as (_ & Q0 & Q1 & Q2).
  assert (forall i j k i' j' k', inr vp i j k -> inr vp i' j' k' -> adjacent (i, j, k) (i', j', k') -> Rabs (av a4 i j k - av a4 i' j' k') <= stp) as HS.
  { intros i j k i' j' k' Hin Hin' Hadj. apply (graded_after_gradation a2 (o_grade o) elen a4); try assumption.
    - intros p q r _. specialize (Hpos p q r). lra.
    - rewrite Q0, Q1, Q2. exact HC.
    - unfold inr in *. rewrite Q0, Q1, Q2. exact Hin.
    - unfold inr in *. rewrite Q0, Q1, Q2. exact Hin'. }
  assert (0 < n2 vp)%nat as HP2 by apply HI.
  assert (forall lo hi n g i, samples (fun x => x) lo hi n g -> is_axis g -> (S i < length g)%nat ->
      stp <= stp / ((hi - lo) / INR (n - 1)) * (nth (S i) g 0 - nth i g 0)) as HW.
  { intros lo hi n g i HSm HAx Hi. pose proof (proj2 HAx i (S i) ltac:(lia)) as Hlt.
    pose proof (samples_gap _ _ _ _ i HSm ltac:(destruct HSm as [<- _]; exact Hi)) as HGp. rewrite HGp.
    assert (0 < (hi - lo) / INR (n - 1)) as HPos by lra. clear HGp. set (w := (hi - lo) / INR (n - 1)) in *. clearbody w. right. field. lra. }
  destruct gs as [|g0 [|g1 [|g2 [|g3 gs]]]]; cbn [sample_grid] in HGr; try contradiction.
  - destruct HGr as (_ & M0 & M1). inversion HA as [|? ? A0 HA1]; subst. inversion HA1 as [|? ? A1 HA2]; subst.
    assert (weighted_l1 [stp / ((bget b 1 - bget b 0) / INR (n0 vp - 1)); stp / ((bget b 3 - bget b 2) / INR (n1 vp - 1));
              stp / ((bget b 5 - bget b 4) / INR (n2 vp - 1))] x y =
            weighted_l1 [stp / ((bget b 1 - bget b 0) / INR (n0 vp - 1)); stp / ((bget b 3 - bget b 2) / INR (n1 vp - 1))] x y) as ->.
    { inversion HX as [|? ? ? ? _ HX1]; subst. inversion HX1 as [|? ? ? ? _ HX2]; subst. inversion HX2; subst.
      inversion HY as [|? ? ? ? _ HY1]; subst. inversion HY1 as [|? ? ? ? _ HY2]; subst. inversion HY2; subst. reflexivity. }
    rewrite <- Sn0, <- Sn1. rewrite <- Sn0, <- Sn1, <- Sn2 in *. pose proof (proj1 M0) as L0. pose proof (proj1 M1) as L1.
    apply interp_lip; try assumption; [reflexivity|]. cbn [step_bounds]. split.
    + intros i ks Hi Hk. inversion Hk as [|? ? k1 ? K1 Hk']; subst. inversion Hk'; subst.
      eapply Rle_trans; [|apply HW; [exact M0|exact A0|exact Hi]]. unfold arr_at; cbn [nth].
      apply HS; unfold inr, adjacent, gdist, adist; rewrite <- ?Sn0, <- ?Sn1, <- ?Sn2; lia.
    + intros i Hi. split; [|intros; exact I]. intros j ks Hj Hk. inversion Hk; subst.
      eapply Rle_trans; [|apply HW; [exact M1|exact A1|exact Hj]]. unfold arr_at; cbn [nth].
      apply HS; unfold inr, adjacent, gdist, adist; rewrite <- ?Sn0, <- ?Sn1, <- ?Sn2; lia.
  - destruct HGr as (_ & M0 & M1 & M2). inversion HA as [|? ? A0 HA1]; subst. inversion HA1 as [|? ? A1 HA2]; subst. inversion HA2 as [|? ? A2 HA3]; subst.
    rewrite <- Sn0, <- Sn1, <- Sn2 in *. pose proof (proj1 M0) as L0. pose proof (proj1 M1) as L1. pose proof (proj1 M2) as L2.
    apply interp_lip; try assumption; [reflexivity|]. cbn [step_bounds]. split; [|intros i Hi; split; [|intros j Hj; split; [|intros; exact I]]].
    + intros i ks Hi Hk. inversion Hk as [|? ? k1 ? K1 Hk']; subst. inversion Hk' as [|? ? k2 ? K2 Hk'']; subst. inversion Hk''; subst.
      eapply Rle_trans; [|apply HW; [exact M0|exact A0|exact Hi]]. unfold arr_at; cbn [nth].
      apply HS; unfold inr, adjacent, gdist, adist; rewrite <- ?Sn0, <- ?Sn1, <- ?Sn2; lia.
    + intros j ks Hj Hk. inversion Hk as [|? ? k2 ? K2 Hk'']; subst. inversion Hk''; subst.
      eapply Rle_trans; [|apply HW; [exact M1|exact A1|exact Hj]]. unfold arr_at; cbn [nth].
      apply HS; unfold inr, adjacent, gdist, adist; rewrite <- ?Sn0, <- ?Sn1, <- ?Sn2; lia.
    + intros k ks Hj' Hk. inversion Hk; subst.
      eapply Rle_trans; [|apply HW; [exact M2|exact A2|exact Hj']]. unfold arr_at; cbn [nth].
      apply HS; unfold inr, adjacent, gdist, adist; rewrite <- ?Sn0, <- ?Sn1, <- ?Sn2; lia.
Qed.
Print Assumptions C84_graded.

Lemma weighted_same : forall Ls x, weighted_l1 Ls x x = 0.
Proof. induction Ls as [|L Ls IH]; intros [|a x]; cbn; try reflexivity. rewrite IH, Rminus_diag_eq, Rabs_R0 by reflexivity. ring. Qed.
Lemma weighted_head : forall L Ls z z' r, weighted_l1 (L :: Ls) (z :: r) (z' :: r) = L * Rabs (z - z').
Proof. intros. cbn [weighted_l1]. change (L * Rabs (z - z') + weighted_l1 Ls r r = L * Rabs (z - z')). rewrite weighted_same. ring. Qed.
(** along depth the requested grade holds in physical units, up to the limiter's tolerance *)
Theorem C84_graded_along_depth : forall ufilter o b vp b4 f h,
  int_grid vp -> bget b 0 <= bget b 1 -> 0 < o_hmin o <= o_hmax o -> (0 < adim vp)%nat -> 0 < o_grade o -> o_domain_pad o = 0 ->
  size_function ufilter (fun x => x) o b vp = SzOk (b4, f, h) ->
  exists ungraded a4 gs, sample_grid (fun x => x) b4 a4 gs /\
    let elen := (bget b 1 - bget b 0) / INR (n0 vp) in
    gradation ungraded (o_grade o) elen = SzOk a4 /\
    (limgrad_converged idR (Z.of_nat (n0 vp)) (Z.of_nat (n1 vp)) (Z.of_nat (n2 vp)) elen (o_grade o) max_sweeps (flattenF ungraded) ->
     forall z z' r, covered gs (z :: r) -> covered gs (z' :: r) ->
     Rabs (f (z :: r) - f (z' :: r)) <=
       (o_grade o * (INR (n0 vp - 1) / INR (n0 vp)) + amin ungraded * sqrt (1 / 10 ^ 9) / ((bget b 1 - bget b 0) / INR (n0 vp - 1))) * Rabs (z - z')).
Proof.
  intros ufilter o b vp b4 f h HI HB HH HD HG HP H.
  destruct (C84_graded ufilter o b vp b4 f h HI HB HH HD HG HP H) as (u & a4 & gs & HS & -> & N0 & N1 & N2 & HGr & HL).
  exists u, a4, gs. split; [exact HS|]. split; [exact HGr|]. intros HC z z' r HX HY. specialize (HL HC _ _ HX HY). cbv zeta in HL. rewrite weighted_head in HL.
  eapply Rle_trans; [exact HL|]. apply Rmult_le_compat_r; [apply Rabs_pos|]. right.
  assert (2 <= n0 a4)%nat as H2.
  { apply size_function_inv in H. destruct H as (a5 & vp5 & H1 & H2 & _).
    destruct (build_inv _ _ _ _ H2) as (gs' & _ & HA' & HS' & _).
    destruct (get_sizing_inv _ _ _ _ _ _ _ H1) as (vp1 & a0 & a2 & a3 & _ & _ & _ & _ & _ & E5 & _ & _ & _ & (_ & S3 & _)).
    unfold domain_pad in E5. rewrite HP in E5. assert (Rltb 0 0 = false) as EF by (apply Rltb_false; lra). unfold Rgtb in E5. rewrite EF in E5. injection E5 as -> _.
    destruct gs' as [|g0 [|g1 [|g2 [|g3 gs']]]]; cbn [sample_grid] in HS'; try contradiction; inversion HA' as [|? ? A0 _]; subst; destruct A0 as [A0 _];
      destruct HS' as (_ & (L0 & _) & _); lia. }
  rewrite N0 in H2. assert (0 < INR (n0 vp - 1)) by (apply lt_0_INR; lia). assert (0 < INR (n0 vp)) by (apply lt_0_INR; lia).
  assert (bget b 1 - bget b 0 <> 0) as HNZ.
  { intros Q. apply size_function_inv in H. destruct H as (a5 & vp5 & H1' & H2' & _).
    destruct (build_inv _ _ _ _ H2') as (gs' & _ & HA' & HS' & _).
    destruct gs' as [|g0 [|g1 [|g2 [|g3 gs']]]]; cbn [sample_grid] in HS'; try contradiction; inversion HA' as [|? ? A0 _]; subst;
      destruct HS' as (_ & M0 & _); pose proof (proj1 M0) as L0; destruct A0 as [A0 A0'];
      pose proof (A0' 0%nat 1%nat ltac:(lia)) as C; pose proof (samples_gap _ _ _ _ 0%nat M0 ltac:(lia)) as G; rewrite Q in G; unfold Rdiv in G; lra. }
  field. repeat split; try lra.
Qed.
Print Assumptions C84_graded_along_depth.

(** along the other axes the requested grade fails in physical units *)
Theorem C84_other_axes_refuted : forall ufilter, exists o b vp f, int_grid vp /\ 0 < o_hmin o <= o_hmax o /\ 0 < o_grade o /\ o_domain_pad o = 0 /\
  size_function ufilter (fun x => x) o b vp = SzOk (b, f, o_hmin o) /\
  exists z x x', bget b 0 <= z <= bget b 1 /\ bget b 2 <= x <= bget b 3 /\ bget b 2 <= x' <= bget b 3 /\
    2 * o_grade o * Rabs (x - x') <= Rabs (f [z; x] - f [z; x']) /\ x <> x'.
Proof.
  intros ufilter. destruct (c16_size_function ufilter) as (f & H1 & H2). exists c16_opts, c16_box, (sq2 1000 1100), f.
  split; [unfold int_grid; cbn; lia|]. unfold c16_opts at 1 2 3 4; cbn [o_hmin o_hmax o_grade]. split; [lra|]. split; [lra|].
  split; [reflexivity|]. split; [exact H1|]. exists 0, (1/2), 0. unfold c16_box, c16_opts, bget; cbn [nth o_grade].
  split; [lra|]. split; [lra|]. split; [lra|]. rewrite H2, !c16_value. split; [|lra].
  rewrite !Rabs_right by lra. lra.
Qed.
Print Assumptions C84_other_axes_refuted.

(** the limiter converges on that example, so the hypotheses of C84_graded and of the implication inside it are met *)
Example C84_case : exists f, size_function (fun a => a) (fun x => x) c16_opts c16_box (sq2 1000 1100) = SzOk (c16_box, f, 1) /\
  int_grid (sq2 1000 1100) /\ 0 < o_grade c16_opts /\ o_domain_pad c16_opts = 0 /\
  limgrad_converged idR (Z.of_nat 2) (Z.of_nat 2) (Z.of_nat 1) 1 (o_grade c16_opts) max_sweeps (flattenF c16_sizes).
Proof.
  destruct (c16_size_function (fun a => a)) as (f & H1 & H2). exists f. split; [exact H1|]. split; [unfold int_grid; cbn; lia|].
  unfold c16_opts; cbn [o_grade]. split; [lra|]. split; [reflexivity|]. rewrite c16_flat.
  apply (terminates 2 2 1 1 (1/10) max_sweeps [1; 1; 11/10; 11/10] 1).
  - unfold valid_dims; lia.
  - reflexivity.
  - intros x Hx. cbn in Hx. decompose [or] Hx; subst; try lra; contradiction.
  - lra.
  - lra.
  - split; [left; reflexivity|]. intros x Hx. cbn in Hx. decompose [or] Hx; subst; try lra; contradiction.
  - assert (INR max_sweeps = 10000) as ->. { unfold max_sweeps. rewrite INR_IZR_INZ, Z2Nat.id by lia. reflexivity. }
    assert (1 / 40000 <= sqrt (1 / 10 ^ 9)) as HS. { rewrite <- (sqrt_pow2 (1 / 40000)) by lra. apply sqrt_le_1_alt. lra. }
    apply Rle_ge.
    assert (1 * sqrt (1 / 10 ^ 9) > 0) by lra.
    assert ((rsum [1; 1; 11/10; 11/10] - INR (length [1; 1; 11/10; 11/10]) * 1) / (1 * sqrt (1 / 10 ^ 9)) <= 9000); [|lra].
    apply (Rmult_le_reg_r (1 * sqrt (1 / 10 ^ 9))); [lra|]. unfold Rdiv at 1. rewrite Rmult_assoc, Rinv_l by lra.
    unfold rsum; cbn [fold_right length INR]. lra.
Qed.
