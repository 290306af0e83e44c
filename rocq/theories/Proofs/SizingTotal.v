(** When get_sizing returns a size function. *)
From Coq Require Import List ZArith Reals Bool Lia Lra.
From Verif Require Import Model.Base Model.FastHJ Model.Sizing Model.UFilter Spec.Velocity Proofs.ListAux Proofs.GridIndex Proofs.Limgrad Proofs.LimgradMain
  Model.Interp Proofs.InterpProofs Proofs.SizingArr Proofs.SizingMain Proofs.SizingMore Proofs.UFilterProofs.
Import ListNotations.
Local Open Scope R_scope.

Definition fails {A} (r : sizing_result A) : Prop := r = SzErr ValueError \/ r = SzNonFinite.
Lemma fails_not_ok {A} (r : sizing_result A) a : fails r -> r <> SzOk a. Proof. intros [-> | ->]; discriminate. Qed.
Lemma sbind_fails {A B} (r : sizing_result A) (k : A -> sizing_result B) : fails r -> fails (sbind r k).
Proof. intros [-> | ->]; [left|right]; reflexivity. Qed.

Lemma convert_av u vp i j k : av (convert_units u vp) i j k = scaled u (av vp i j k).
Proof. destruct u; cbn [convert_units av amap scaled]; ring. Qed.
Lemma convert_inr u vp i j k : inr (convert_units u vp) i j k <-> has vp i j k.
Proof. destruct u; reflexivity. Qed.
Definition water_fine (o : opts) (vp : garr) : Prop := has_water o vp -> exists x, o_vp_water o = Some x /\ 1300 <= x <= 1800.
Lemma has_water_iff o vp : has_water o vp <-> exists i j k, inr (convert_units (o_units o) vp) i j k /\ (0 < i)%nat /\ av (convert_units (o_units o) vp) i j k < 1 / 1000.
Proof.
  unfold has_water. split; intros (i & j & k & H & P & L); exists i, j, k.
  - split; [exact (proj2 (convert_inr (o_units o) vp i j k) H)|]. split; [exact P|]. rewrite convert_av. exact L.
  - split; [exact (proj1 (convert_inr (o_units o) vp i j k) H)|]. split; [exact P|]. rewrite convert_av in L. exact L.
Qed.
Lemma prepare_total o vp : (water_fine o vp -> exists vp1, prepare_vp o vp = SzOk vp1) /\ (~ water_fine o vp -> prepare_vp o vp = SzErr ValueError).
Proof.
  unfold water_fine. rewrite has_water_iff. unfold prepare_vp. set (c := convert_units (o_units o) vp).
  assert (Decidable.decidable (exists i j k, inr c i j k /\ (0 < i)%nat /\ av c i j k < 1 / 1000)) as [W|W].
  { unfold Decidable.decidable. destruct (water_trigger c) eqn:E; [left; apply water_trigger_spec, E|right; intros H; apply water_trigger_spec in H; congruence]. }
  - destruct (water_replaced (o_vp_water o) c W) as [G B]. split.
    + intros H. destruct (H W) as (x & E & L). destruct (G x E L) as (vp1 & E1 & _). exists vp1. exact E1.
    + intros N. apply B. destruct (o_vp_water o) as [x|]; [right|left; reflexivity]. exists x. split; [reflexivity|].
      destruct (Rlt_dec x 1300); [left; assumption|]. destruct (Rlt_dec 1800 x); [right; assumption|]. exfalso. apply N. intros _. exists x. split; [reflexivity|lra].
  - assert (replace_water (o_vp_water o) c = SzOk c) as E. { apply water_row0_kept. intros i j k Hi Hp. apply Rnot_lt_le. intros L. apply W. exists i, j, k. tauto. }
    split; [intros _; exists c; exact E|]. intros N. exfalso. apply N. intros H. destruct (W H).
Qed.
Definition initial_fine (win : list R) (o : opts) (vp1 : garr) : Prop :=
  0 < o_wl o \/ 0 < o_grad o -> 0 <= o_wl o /\ 0 <= o_grad o /\ (0 < o_wl o -> 0 < o_freq o) /\ (0 < o_grad o -> change_seen win vp1).
Lemma wavelength_total vp wl freq : (0 <= wl /\ (0 < wl -> 0 < freq) -> exists a, wavelength_sizing vp wl freq = SzOk a) /\ (~ (0 <= wl /\ (0 < wl -> 0 < freq)) -> fails (wavelength_sizing vp wl freq)).
Proof.
  unfold wavelength_sizing. destruct (Reqb wl 0) eqn:E0.
  - apply Reqb_true in E0. split; [intros _; eexists; reflexivity|]. intros N. exfalso. apply N. split; lra.
  - apply Reqb_false in E0. destruct (Rltb wl 0) eqn:E1; [apply Rltb_true in E1; split; [intros [A _]; lra|intros _; left; reflexivity]|]. apply Rltb_false in E1.
    destruct (Rltb freq 0) eqn:E2; [apply Rltb_true in E2; split; [intros [_ A]; assert (0 < freq) by (apply A; lra); lra|intros _; left; reflexivity]|]. apply Rltb_false in E2.
    destruct (Reqb (freq * wl) 0) eqn:E3.
    + apply Reqb_true in E3. apply Rmult_integral in E3. split; [intros [_ A]; assert (0 < freq) by (apply A; lra); lra|intros _; right; reflexivity].
    + apply Reqb_false in E3. split; [intros _; eexists; reflexivity|]. intros N. exfalso. apply N. split; [lra|]. intros _. destruct E2 as [E2|E2]; [exact E2|]. exfalso. apply E3. rewrite <- E2. ring.
Qed.
Lemma gradient_total win vp grad : positive_shape vp -> (0 <= grad /\ (0 < grad -> change_seen win vp) -> exists a, gradient_sizing (uniform_filter win) vp grad = SzOk a) /\
  (~ (0 <= grad /\ (0 < grad -> change_seen win vp)) -> fails (gradient_sizing (uniform_filter win) vp grad)).
Proof.
  intros P. destruct (Rtotal_order grad 0) as [L|[-> |L]].
  - split; [intros [A _]; lra|]. intros _. left. unfold gradient_sizing. rb. reflexivity.
  - split; [|intros N; exfalso; apply N; split; lra]. intros _. unfold gradient_sizing. rb. eexists; reflexivity.
  - split; [intros [_ A]; destruct (gradient_sizes win vp grad P L (A L)) as (s & E & _); exists s; exact E|].
    intros N. right. apply (gradient_sizes_fail win vp grad P L). intros C. apply N. split; [lra|]. intros _. exact C.
Qed.
Lemma initial_total win o vp1 : positive_shape vp1 -> (initial_fine win o vp1 -> exists a, initial_size (uniform_filter win) o vp1 = SzOk a) /\
  (~ initial_fine win o vp1 -> fails (initial_size (uniform_filter win) o vp1)).
Proof.
  intros P. unfold initial_fine, initial_size, Rgtb. destruct (Rltb 0 (o_wl o) || Rltb 0 (o_grad o)) eqn:E.
  - assert (0 < o_wl o \/ 0 < o_grad o) as H. { apply orb_prop in E. destruct E as [E|E]; apply Rltb_true in E; tauto. }
    destruct (wavelength_total vp1 (o_wl o) (o_freq o)) as [W1 W2]. destruct (gradient_total win vp1 (o_grad o) P) as [G1 G2]. split.
    + intros F. destruct (F H) as (A & B & C & D). destruct (W1 (conj A C)) as [x ->]. destruct (G1 (conj B D)) as [y ->]. cbn [sbind]. eexists; reflexivity.
    + intros N. destruct (wavelength_sizing vp1 (o_wl o) (o_freq o)) as [x|e|] eqn:EW.
      * cbn [sbind]. apply sbind_fails, G2. intros [B D]. apply N. intros _.
        destruct (Rle_dec 0 (o_wl o)) as [A|A].
        -- split; [exact A|]. split; [exact B|]. split; [|exact D]. intros Pw. destruct (Rlt_dec 0 (o_freq o)) as [Q|Q]; [exact Q|]. exfalso. eapply (fails_not_ok _ x); [apply W2|reflexivity]. intros [_ C]. auto.
        -- exfalso. eapply (fails_not_ok _ x); [apply W2|reflexivity]. intros [C _]. auto.
      * cbn [sbind]. left. destruct (Rle_dec 0 (o_wl o)) as [A|A].
        -- destruct W2 as [W2|W2]; [|congruence|discriminate]. intros C. destruct (W1 C) as [? ?]. discriminate.
        -- destruct W2 as [W2|W2]; [tauto|congruence|discriminate].
      * right. reflexivity.
  - apply orb_false_iff in E. destruct E as [E1 E2]. apply Rltb_false in E1, E2. split; [intros _; eexists; reflexivity|]. intros N. exfalso. apply N. intros [H|H]; lra.
Qed.
Definition courant_fine (o : opts) : Prop := o_cr_max o = 0 \/ o_dt o = 0 \/ o_space_order o = 0 \/ 0 < o_cr_max o /\ 0 < o_dt o /\ 1 <= o_space_order o.
Lemma courant_total o vp a : (forall i j k, inr a i j k -> 0 < av a i j k) ->
  (courant_fine o -> exists a', courant vp a (o_cr_max o) (o_dt o) (o_space_order o) = SzOk a') /\ (~ courant_fine o -> courant vp a (o_cr_max o) (o_dt o) (o_space_order o) = SzErr ValueError).
Proof.
  intros Pos. unfold courant_fine. split.
  - intros [H|[H|[H|(A & B & C)]]]; try (exists a; apply courant_off; tauto). destruct (courant_succeeds vp a _ _ _ A B C Pos) as (a' & E & _). exists a'. exact E.
  - intros N. apply courant_parameters; try tauto. destruct (Rtotal_order (o_cr_max o) 0) as [L|[L|L]]; try tauto.
    destruct (Rtotal_order (o_dt o) 0) as [L'|[L'|L']]; try tauto. right; right. apply Rnot_le_lt. tauto.
Qed.
Lemma gradation_total a grade elen : int_grid a -> 0 <= elen -> (forall i j k, inr a i j k -> 0 <= av a i j k) ->
  (0 <= grade -> exists a', gradation a grade elen = SzOk a') /\ (~ 0 <= grade -> gradation a grade elen = SzErr ValueError).
Proof.
  intros G E Pos. split.
  - intros [L|<-]; [|exists a; apply gradation_off]. unfold gradation. rb.
    destruct (refines_only idR (fun _ => True) idR_rounding (n0 a) (n1 a) (n2 a) elen grade max_sweeps (flattenF a)) as (out & EL & _).
    + exact (int_grid_valid a G).
    + apply flattenF_length.
    + apply Forall_forall. auto.
    + apply flattenF_forall. exact Pos.
    + exact E.
    + lra.
    + unfold idR in EL. rewrite EL. eexists; reflexivity.
  - intros N. unfold gradation. rb. reflexivity.
Qed.
Definition pad_fine (o : opts) : Prop := 0 <= o_domain_pad o /\ (0 < o_domain_pad o -> o_pad_style o <> PadOther).
Lemma pad_total o a vp b : (pad_fine o -> exists r, domain_pad a vp b (o_pad_style o) (o_domain_pad o) = SzOk r) /\
  (~ pad_fine o -> domain_pad a vp b (o_pad_style o) (o_domain_pad o) = SzErr ValueError).
Proof.
  unfold pad_fine. split.
  - intros [[L|E] S0].
    + unfold domain_pad, Rgtb. rb. destruct (pad_counts vp b (o_domain_pad o)) as [[p0 p1] p2]. specialize (S0 L).
      unfold pad_it. destruct (o_pad_style o); cbn [sbind]; try (eexists; reflexivity). congruence.
    + rewrite <- E. destruct (domain_pad_rejects a vp b (o_pad_style o) 0) as (_ & _ & ->). eexists; reflexivity.
  - intros N. destruct (Rle_dec 0 (o_domain_pad o)) as [L|L].
    + destruct (Rlt_dec 0 (o_domain_pad o)) as [Q|Q]; [|exfalso; apply N; split; [exact L|]; intros; tauto].
      assert (o_pad_style o = PadOther) as ->. { destruct (o_pad_style o); try reflexivity; exfalso; apply N; split; try exact L; discriminate. }
      apply (domain_pad_rejects a vp b (o_pad_style o)); exact Q.
    + apply (domain_pad_rejects a vp b (o_pad_style o)). lra.
Qed.
Lemma clamp_pos lo hi a i j k : 0 < lo -> 0 < hi -> 0 < av (clamp lo hi a) i j k.
Proof.
  intros L H. unfold clamp, amap, Rgtb; cbn [av]. destruct (Rltb (av a i j k) lo) eqn:E.
  - destruct (Rltb hi lo); lra.
  - apply Rltb_false in E. destruct (Rltb hi (av a i j k)); lra.
Qed.
Lemma sbind_total {A B} (P : Prop) (Q : A -> Prop) (R : Prop) (r : sizing_result A) (k : A -> sizing_result B) :
  (P -> exists a, r = SzOk a) -> (~ P -> fails r) -> (P \/ ~ P) ->
  (forall a, r = SzOk a -> (R -> exists b, k a = SzOk b) /\ (~ R -> fails (k a))) ->
  (P /\ R -> exists b, sbind r k = SzOk b) /\ (~ (P /\ R) -> fails (sbind r k)).
Proof.
  intros H1 H2 D H3. split.
  - intros [p q]. destruct (H1 p) as [a E]. rewrite E. apply (H3 a E), q.
  - intros N. destruct D as [p|p]; [|apply sbind_fails, H2, p]. destruct (H1 p) as [a E]. rewrite E. apply (H3 a E). tauto.
Qed.

Lemma dec_imp (P Q : Prop) : (P \/ ~ P) -> (Q \/ ~ Q) -> ((P -> Q) \/ ~ (P -> Q)). Proof. tauto. Qed.
Lemma and_dec' (P Q : Prop) : (P \/ ~ P) -> (Q \/ ~ Q) -> ((P /\ Q) \/ ~ (P /\ Q)). Proof. tauto. Qed.
Lemma or_dec' (P Q : Prop) : (P \/ ~ P) -> (Q \/ ~ Q) -> ((P \/ Q) \/ ~ (P \/ Q)). Proof. tauto. Qed.
Lemma le_dec' x y : x <= y \/ ~ x <= y. Proof. destruct (Rle_dec x y); tauto. Qed.
Lemma lt_dec' x y : x < y \/ ~ x < y. Proof. destruct (Rlt_dec x y); tauto. Qed.
Lemma eq_dec' (x y : R) : x = y \/ ~ x = y. Proof. destruct (Req_dec x y); tauto. Qed.
Lemma initial_dec win o vp1 : positive_shape vp1 -> initial_fine win o vp1 \/ ~ initial_fine win o vp1.
Proof.
  intros P. destruct (initial_total win o vp1 P) as [A B]. unfold initial_fine in *.
  apply dec_imp; [apply or_dec'; apply lt_dec'|]. apply and_dec'; [apply le_dec'|]. apply and_dec'; [apply le_dec'|].
  apply and_dec'; [apply dec_imp; apply lt_dec'|]. destruct (lt_dec' 0 (o_grad o)) as [L|L]; [|left; tauto].
  destruct (gradient_total win vp1 (o_grad o) P) as [G1 G2].
  destruct (gradient_sizing (uniform_filter win) vp1 (o_grad o)) as [x|e|] eqn:E.
  - left. intros _. assert (~ ~ change_seen win vp1) as NN.
    { intros N. destruct G2 as [G|G]; [tauto|discriminate|discriminate]. }
    assert (~ (gradient_sizing (uniform_filter win) vp1 (o_grad o) = SzNonFinite)) as Q by congruence.
    apply Classical_Prop.NNPP. exact NN.
  - right. intros C. destruct (G1) as [a F]; [split; [lra|exact C]|]. congruence.
  - right. intros C. destruct (G1) as [a F]; [split; [lra|exact C]|]. congruence.
Qed.

Section S.
Variables (win : list R) (o : opts) (b : bbox) (vp : garr).
Hypothesis G : int_grid vp.
Hypothesis D : (0 < adim vp)%nat.
Hypothesis B : (length b = 4 \/ length b = 6)%nat.
Hypothesis E01 : bget b 0 <= bget b 1.
Hypothesis Hmin : 0 < o_hmin o.
Hypothesis Hmax : 0 < o_hmax o.

Lemma rest_total vp1 : prepare_vp o vp = SzOk vp1 ->
  let r := sbind (initial_size (uniform_filter win) o vp1) (fun a0 =>
    sbind (courant vp1 (clamp (o_hmin o) (o_hmax o) a0) (o_cr_max o) (o_dt o) (o_space_order o)) (fun a2 =>
    sbind (gradation a2 (o_grade o) ((bget b 1 - bget b 0) / INR (n0 vp1))) (fun a3 =>
    domain_pad a3 vp1 b (o_pad_style o) (o_domain_pad o)))) in
  (initial_fine win o vp1 /\ courant_fine o /\ 0 <= o_grade o /\ pad_fine o -> exists x, r = SzOk x) /\
  (~ (initial_fine win o vp1 /\ courant_fine o /\ 0 <= o_grade o /\ pad_fine o) -> fails r).
Proof.
  intros EP. pose proof (prepare_shape _ _ _ EP) as Sh. assert (int_grid vp1) as G1 by (apply (shape_int_grid vp); [apply shape_eq_sym, Sh|exact G]).
  pose proof (int_grid_pos _ G1) as P1. assert (0 < adim vp1)%nat as D1. { destruct Sh as (-> & _). exact D. }
  cbv zeta. destruct (initial_total win o vp1 P1) as [I1 I2].
  apply (sbind_total (initial_fine win o vp1) (fun _ => True)); [exact I1|exact I2|exact (initial_dec win o vp1 P1)|]. intros a0 E0. clear I1 I2.
  pose proof (initial_shape _ _ _ _ E0) as Sh0. set (a1 := clamp (o_hmin o) (o_hmax o) a0).
  assert (forall i j k, 0 < av a1 i j k) as Pa1 by (intros; apply clamp_pos; assumption).
  assert (shape_eq a1 vp1) as Sh1 by (eapply shape_eq_trans; [apply clamp_shape|exact Sh0]).
  destruct (courant_total o vp1 a1) as [C1 C2]; [intros; apply Pa1|].
  apply (sbind_total (courant_fine o) (fun _ => True)); [exact C1|intros N; left; exact (C2 N)| |].
  { unfold courant_fine. apply or_dec'; [apply eq_dec'|]. apply or_dec'; [apply eq_dec'|]. apply or_dec'; [apply eq_dec'|].
    apply and_dec'; [apply lt_dec'|]. apply and_dec'; [apply lt_dec'|apply le_dec']. }
  intros a2 E2. clear C1 C2. pose proof (courant_shape _ _ _ _ _ _ Sh1 E2) as Sh2.
  assert (int_grid a2) as G2 by (apply (shape_int_grid vp1); [apply shape_eq_sym; eapply shape_eq_trans; [exact Sh2|exact Sh1]|exact G1]).
  assert (forall i j k, inr a2 i j k -> 0 <= av a2 i j k) as Pa2.
  { intros i j k _. pose proof (Pa1 i j k). destruct (courant_on_inv _ _ _ _ _ _ E2) as [[_ ->]|(L1 & L2 & L3 & _)]; [lra|].
    pose proof (courant_point _ _ _ _ _ _ i j k E2 L1 L2 L3 D1 (Pa1 i j k)) as H2. cbv zeta in H2. destruct H2 as [H2 _]. lra. }
  assert (0 <= (bget b 1 - bget b 0) / INR (n0 vp1)) as El.
  { destruct P1 as (Pn & _). apply Rmult_le_pos; [lra|]. left. apply Rinv_0_lt_compat, lt_0_INR. exact Pn. }
  destruct (gradation_total a2 (o_grade o) _ G2 El Pa2) as [R1 R2].
  apply (sbind_total (0 <= o_grade o) (fun _ => True)); [exact R1|intros N; left; exact (R2 N)|apply le_dec'|].
  intros a3 E3. destruct (pad_total o a3 vp1 b) as [P2 P3]. split; [exact P2|intros N; left; exact (P3 N)].
Qed.
Lemma get_sizing_unfold vp1 : prepare_vp o vp = SzOk vp1 -> get_sizing (uniform_filter win) o b vp =
  sbind (initial_size (uniform_filter win) o vp1) (fun a0 =>
    sbind (courant vp1 (clamp (o_hmin o) (o_hmax o) a0) (o_cr_max o) (o_dt o) (o_space_order o)) (fun a2 =>
    sbind (gradation a2 (o_grade o) ((bget b 1 - bget b 0) / INR (n0 vp1))) (fun a3 =>
    domain_pad a3 vp1 b (o_pad_style o) (o_domain_pad o)))).
Proof.
  intros E. unfold get_sizing. rewrite E. cbn [sbind]. assert (exists d, bbox_dim b = Ok d) as [d ->]; [|reflexivity].
  unfold bbox_dim. destruct B as [-> | ->]; cbn; eexists; reflexivity.
Qed.
Theorem sizing_total vp1 : (water_fine o vp -> prepare_vp o vp = SzOk vp1) ->
  (acceptable win o vp vp1 -> exists x, get_sizing (uniform_filter win) o b vp = SzOk x) /\
  (~ acceptable win o vp vp1 -> fails (get_sizing (uniform_filter win) o b vp)).
Proof.
  intros EP. destruct (prepare_total o vp) as [P1 P2]. split.
  - intros (W & I & C & Gr & Pd). specialize (EP W). rewrite (get_sizing_unfold vp1 EP). apply (rest_total vp1 EP). split; [exact I|]. split; [exact C|]. split; [exact Gr|exact Pd].
  - intros N. destruct (Classical_Prop.classic (water_fine o vp)) as [W|W].
    + specialize (EP W). rewrite (get_sizing_unfold vp1 EP). apply (rest_total vp1 EP). intros (I & C & Gr & Pd). apply N. split; [exact W|]. split; [exact I|]. split; [exact C|]. split; [exact Gr|exact Pd].
    + unfold get_sizing. rewrite (P2 W). left. reflexivity.
Qed.
End S.
Lemma wrong_box ufilter o b vp : (length b <> 4)%nat -> (length b <> 6)%nat -> get_sizing ufilter o b vp = SzErr ValueError.
Proof.
  intros N4 N6. unfold get_sizing. destruct (prepare_total o vp) as [P1 P2]. destruct (Classical_Prop.classic (water_fine o vp)) as [W|W].
  - destruct (P1 W) as [vp1 ->]. cbn [sbind]. unfold bbox_dim. rewrite (proj2 (Nat.eqb_neq _ _) N4), (proj2 (Nat.eqb_neq _ _) N6). reflexivity.
  - rewrite (P2 W). reflexivity.
Qed.
(** hmin above hmax: hmax wins *)
Lemma swapped_limits ufilter o b vp a4 vp4 b4 : int_grid vp -> bget b 0 <= bget b 1 -> 0 < o_hmax o < o_hmin o ->
  o_cr_max o = 0 \/ o_dt o = 0 \/ o_space_order o = 0 ->
  get_sizing ufilter o b vp = SzOk (a4, vp4, b4) -> forall i j k, inr a4 i j k -> av a4 i j k = o_hmax o.
Proof.
  intros G E01 H C E. apply get_sizing_inv in E. destruct E as (vp1 & a0 & a2 & a3 & EP & _ & EI & EC & EG & ED & _).
  pose proof (prepare_shape _ _ _ EP) as Sh. assert (int_grid vp1) as G1 by (apply (shape_int_grid vp); [apply shape_eq_sym, Sh|exact G]).
  rewrite (courant_off ufilter _ _ _ _ _ C) in EC. injection EC as <-. set (a1 := clamp (o_hmin o) (o_hmax o) a0) in *.
  assert (forall i j k, av a1 i j k = o_hmax o) as A1.
  { intros i j k. unfold a1, clamp, amap, Rgtb; cbn [av]. destruct (Rltb (av a0 i j k) (o_hmin o)) eqn:Q.
    - rb. reflexivity.
    - apply Rltb_false in Q. rb. reflexivity. }
  pose proof (initial_shape _ _ _ _ EI) as Sh0. assert (shape_eq a1 vp1) as Sh1 by (eapply shape_eq_trans; [apply clamp_shape|exact Sh0]).
  assert (int_grid a1) as Ga by (apply (shape_int_grid vp1); [apply shape_eq_sym, Sh1|exact G1]).
  assert (0 <= (bget b 1 - bget b 0) / INR (n0 vp1)) as El.
  { destruct (int_grid_pos _ G1) as (Pn & _). apply Rmult_le_pos; [lra|]. left. apply Rinv_0_lt_compat, lt_0_INR. exact Pn. }
  assert (forall i j k, inr a3 i j k -> o_hmax o <= av a3 i j k <= o_hmax o) as A3.
  { intros i j k Hi. pose proof (gradation_shape _ _ _ _ EG) as Sh3. destruct (fun H1 H2 => gradation_bounds a1 (o_grade o) _ a3 (o_hmax o) Ga El (Rlt_le _ _ (proj1 H)) H1 EG i j k H2) as [L1 L2].
    - intros. rewrite A1. lra.
    - eapply shape_eq_inr; [exact Sh3|exact Hi].
    - rewrite A1 in L2. split; assumption. }
  assert (positive_shape a3) as P3. { apply int_grid_pos, (shape_int_grid a1); [apply shape_eq_sym, (gradation_shape _ _ _ _ EG)|exact Ga]. }
  intros i j k Hi. pose proof (domain_pad_bounds a3 vp1 b _ _ a4 vp4 b4 (o_hmax o) (o_hmax o) P3 ED A3 i j k Hi). lra.
Qed.

(** the interpolant is built whenever the sizes are: exact coordinates, a box of the array's dimension with positive sides, two samples or more per axis *)
Lemma axis_ok lo hi n : lo < hi -> (2 <= n)%nat -> increasing (grid_vec (fun x => x) lo hi n) = true /\ (length (grid_vec (fun x => x) lo hi n) <? 2)%nat = false.
Proof.
  intros L N. assert (length (grid_vec (fun x => x) lo hi n) = n) as EL by (unfold grid_vec; rewrite map_length, seq_length; reflexivity). split.
  - apply axis_increasing. intros i Hi. rewrite EL in Hi. 
    assert (forall k, (k < n)%nat -> nth k (grid_vec (fun x => x) lo hi n) 0 = linspace lo hi n k) as NK.
    { intros k Hk. unfold grid_vec. rewrite (nth_indep _ 0 (linspace lo hi n 0)) by (rewrite map_length, seq_length; exact Hk). rewrite (map_nth (fun i => linspace lo hi n i)). rewrite seq_nth by exact Hk. reflexivity. }
    rewrite !NK by lia. unfold linspace.
    destruct (Nat.eqb_spec n 1); [lia|]. rewrite S_INR. assert (0 < (hi - lo) / INR (n - 1)) by (apply Rdiv_lt_0_compat; [lra|apply lt_0_INR; lia]). lra.
  - rewrite EL. apply Nat.ltb_ge. exact N.
Qed.
Definition usable (b : bbox) (vp : garr) : Prop :=
  (2 <= n0 vp)%nat /\ (2 <= n1 vp)%nat /\ bget b 0 < bget b 1 /\ bget b 2 < bget b 3 /\ (adim vp = 3%nat -> (2 <= n2 vp)%nat /\ bget b 4 < bget b 5).
Lemma interpolant_total ufilter o b vp a4 vp4 b4 : usable b vp -> get_sizing ufilter o b vp = SzOk (a4, vp4, b4) -> exists f, build_interpolant (fun x => x) a4 b4 = SzOk f.
Proof.
  intros U E. apply get_sizing_inv in E. destruct E as (vp1 & a0 & a2 & a3 & EP & _ & EI & EC & EG & ED & _ & _ & _ & S3).
  assert (usable b4 a4) as U4.
  { pose proof (prepare_shape _ _ _ EP) as Sh. destruct S3 as (D3 & N0 & N1 & N2). destruct Sh as (D1 & _). unfold domain_pad in ED. destruct (Rltb (o_domain_pad o) 0); [discriminate|]. unfold Rgtb in ED.
    destruct (Rltb 0 (o_domain_pad o)) eqn:L; [apply Rltb_true in L|injection ED as <- <- <-; unfold usable in *; rewrite D3, N0, N1, N2; exact U].
    destruct (pad_counts vp1 b (o_domain_pad o)) as [[p0 p1] p2].
    apply sbind_ok in ED. destruct ED as (x & EX & ED). apply sbind_ok in ED. destruct ED as (y & EY & ED). injection ED as <- <- <-.
    unfold pad_it in EX. unfold usable in *. rewrite D1. destruct U as (U0 & U1 & U2 & U3 & U4).
    destruct (o_pad_style o); try discriminate; injection EX as <-; cbn [n0 n1 n2 adim]; rewrite N0, N1, N2, D3; unfold padded_bbox;
    (destruct (Nat.eqb_spec (adim vp) 3) as [E3|E3]; unfold bget in *; cbn [nth] in *; (split; [lia|]; split; [lia|]; split; [lra|]; split; [lra|]; intros E3'; first [congruence | destruct (U4 E3') as [? ?]; split; [lia|lra]])). }
  destruct U4 as (U0 & U1 & U2 & U3 & U5). unfold build_interpolant, grid_vecs.
  destruct (axis_ok _ _ _ U2 U0) as [A0 B0]. destruct (axis_ok _ _ _ U3 U1) as [A1 B1].
  destruct (Nat.eqb_spec (adim a4) 3) as [E3|E3]; cbn [app forallb existsb]; rewrite A0, A1, B0, B1; cbn [andb orb].
  - destruct (U5 E3) as [V1 V2]. destruct (axis_ok _ _ _ V2 V1) as [A2 B2]. rewrite A2, B2. cbn. eexists; reflexivity.
  - cbn. eexists; reflexivity.
Qed.
