(** Proofs about Model/SizingCall.v: shapes through the stages, and the link to Model/Sizing.v. *)
From Coq Require Import String List Reals Bool Arith Lia Lra.
From Verif Require Import Model.Base Model.FastHJ Model.ReadBin Model.Sizing Model.Interp Model.VelocityIO Model.SizingCall Proofs.ListAux.
Import ListNotations.
Local Open Scope R_scope.

Definition with_grade (o : opts) (g : R) : opts :=
  mkOpts (o_vp_water o) (o_hmin o) (o_hmax o) (o_wl o) (o_freq o) (o_grad o) g (o_space_order o) (o_dt o) (o_cr_max o) (o_pad_style o) (o_domain_pad o) (o_units o).
Definition like (a b : garr) : Prop := adim a = adim b /\ n0 a = n0 b /\ n1 a = n1 b /\ n2 a = n2 b.
Lemma like_refl a : like a a. Proof. repeat split. Qed.
Lemma like_trans a b c : like a b -> like b c -> like a c. Proof. unfold like. intuition congruence. Qed.
Lemma like_sym a b : like a b -> like b a. Proof. unfold like. intuition congruence. Qed.
Lemma same_like a b : same_shape a b = true <-> like a b.
Proof. unfold same_shape, like. rewrite !andb_true_iff, !Nat.eqb_eq. tauto. Qed.
Lemma same_false a b : same_shape a b = false <-> ~ like a b.
Proof. rewrite <- same_like. destruct (same_shape a b); split; intros; congruence. Qed.
Lemma like_amap f a : like (amap f a) a. Proof. repeat split. Qed.
Lemma like_clamp lo hi a : like (clamp lo hi a) a. Proof. repeat split. Qed.
Lemma like_prepare o vp vp1 : prepare_vp o vp = SzOk vp1 -> like vp1 vp.
Proof.
  unfold prepare_vp, replace_water. destruct (water_trigger _).
  - destruct (o_vp_water o) as [x|]; [|discriminate]. destruct (_ || _); [discriminate|]. intros H. injection H as <-. eapply like_trans; [apply like_amap|]. destruct (o_units o); repeat split.
  - intros H. injection H as <-. destruct (o_units o); repeat split.
Qed.
Lemma like_initial uf o vp a : initial_size uf o vp = SzOk a -> like a vp.
Proof.
  unfold initial_size. destruct (_ || _).
  - destruct (wavelength_sizing vp (o_wl o) (o_freq o)) as [w| |] eqn:W; try discriminate. cbn [sbind]. destruct (gradient_sizing uf vp (o_grad o)) as [g| |]; try discriminate. cbn [sbind].
    intros H. injection H as <-. revert W. unfold wavelength_sizing. destruct (Reqb _ _); [intros H; injection H as <-; repeat split|]. destruct (Rltb _ _); [discriminate|]. destruct (Rltb _ _); [discriminate|].
    destruct (Reqb _ _); [discriminate|]. intros H; injection H as <-; repeat split.
  - intros H. injection H as <-. repeat split.
Qed.
Lemma like_gradation a g e b : gradation a g e = SzOk b -> like b a.
Proof.
  unfold gradation. destruct (Reqb _ _); [intros H; injection H as <-; repeat split|]. destruct (Rltb _ _); [discriminate|]. destruct (limgrad _ _ _ _ _ _ _ _); [|discriminate].
  intros H. injection H as <-. repeat split.
Qed.
Lemma like_courant vp a c d s b : like a vp -> courant vp a c d s = SzOk b -> like b vp.
Proof.
  intros L. unfold courant. destruct (_ || _ || _); [intros H; injection H as <-; exact L|]. destruct (Rltb _ _); [discriminate|]. destruct (Rltb _ _); [discriminate|]. destruct (Rltb _ _); [discriminate|].
  destruct (existsb _ _); [discriminate|]. intros H. injection H as <-. repeat split.
Qed.
Lemma like_pad st p q r x y a b a' b' : like a b -> pad_it st p q r x a = SzOk a' -> pad_it st p q r y b = SzOk b' -> like a' b'.
Proof. intros (L & L0 & L1 & L2). destruct st; cbn [pad_it]; intros H H'; try discriminate; injection H as <-; injection H' as <-; unfold like; cbn [adim n0 n1 n2]; rewrite L, L0, L1, L2; repeat split. Qed.
Lemma pad_dims st p q r x a a' : pad_it st p q r x a = SzOk a' -> adim a' = adim a /\ n0 a' = (p + n0 a)%nat /\ n1 a' = (q + n1 a + q)%nat /\ n2 a' = (r + n2 a + r)%nat.
Proof. destruct st; cbn [pad_it]; intros H; try discriminate; injection H as <-; repeat split. Qed.
Lemma pad_finite st p q r x a : pad_it st p q r x a <> SzNonFinite.
Proof. destruct st; cbn [pad_it]; discriminate. Qed.
Lemma courant_like vp a c d s : like a vp -> courant_call vp a c d s = courant vp a c d s.
Proof.
  intros L. unfold courant_call, courant. destruct (_ || _ || _); [reflexivity|]. destruct (Rltb _ _); [reflexivity|]. destruct (Rltb _ _); [reflexivity|]. destruct (Rltb _ _); [reflexivity|].
  unfold broadcast. rewrite (proj2 (same_like vp a)) by (apply like_sym, L). reflexivity.
Qed.
(** the limiter sees only the product of the spacing and the grade *)
Lemma gradation_product a g e g' e' : e * g = e' * g' -> (g = 0 <-> g' = 0) -> (g < 0 <-> g' < 0) -> gradation a g e = gradation a g' e'.
Proof.
  intros P Z N. unfold gradation. assert (Reqb g 0 = Reqb g' 0) as -> by (unfold Reqb; destruct (Req_EM_T g 0), (Req_EM_T g' 0); tauto).
  destruct (Reqb g' 0); [reflexivity|]. assert (Rltb g 0 = Rltb g' 0) as -> by (unfold Rltb; destruct (Rlt_dec g 0), (Rlt_dec g' 0); tauto).
  destruct (Rltb g' 0); [reflexivity|]. unfold limgrad, c_limgrad_full. rewrite P. reflexivity.
Qed.
Lemma gradation_points a g w n m : (0 < INR n) -> 0 < INR m -> gradation a g (w / INR m) = gradation a (g * (INR n / INR m)) (w / INR n).
Proof.
  intros N M. assert (0 < INR n / INR m) as Q by (apply Rdiv_lt_0_compat; assumption). apply gradation_product.
  - field. split; lra.
  - split; intros H; [rewrite H; lra|]. apply Rmult_integral in H as [H|H]; [exact H|lra].
  - split; intros H; [nra|]. destruct (Rlt_le_dec g 0) as [?|G]; [assumption|]. exfalso. assert (0 <= g * (INR n / INR m)) by (apply Rmult_le_pos; lra). lra.
Qed.

Definition filled (vp : garr) : Prop := (adim vp = 2%nat /\ n2 vp = 1%nat \/ adim vp = 3%nat) /\ (0 < n0 vp /\ 0 < n1 vp /\ 0 < n2 vp)%nat.
Lemma filled_like a b : like a b -> filled b -> filled a.
Proof. intros (A & B & C & D). unfold filled. rewrite A, B, C, D. auto. Qed.
Lemma filled_entries a : filled a -> no_entries a = false.
Proof. intros (_ & A & B & C). unfold no_entries. apply Nat.eqb_neq. nia. Qed.
Section Stages.
Variables (rnd : R -> R) (o : opts) (b : bbox) (elen : R).
Definition stages (vp1 a1 : garr) : sizing_result (bbox * (list R -> R) * R) :=
  sbind (courant vp1 a1 (o_cr_max o) (o_dt o) (o_space_order o)) (fun a2 =>
  sbind (gradation a2 (o_grade o) elen) (fun a3 =>
  sbind (domain_pad a3 vp1 b (o_pad_style o) (o_domain_pad o)) (fun r => let '(a, _, b') := r in sbind (build_interpolant rnd a b') (fun f => SzOk (b', f, o_hmin o))))).
Definition stages_call (tuple : bool) (vp1 a1 : garr) : sizing_result (bbox * (list R -> R) * R) :=
  sbind (courant_call vp1 a1 (o_cr_max o) (o_dt o) (o_space_order o)) (fun a2 =>
  sbind (gradation a2 (o_grade o) elen) (fun a3 =>
  sbind (pad_call a3 vp1 b (o_pad_style o) (o_domain_pad o)) (fun r => let '(a4, vp2, b') := r in
  sbind (interpolant_call rnd a4 vp2 b') (fun f => if tuple || Rgtb (o_domain_pad o) 0 then SzOk (b', f, o_hmin o) else SzErr ValueError)))).
Definition usual_box (vp : garr) : Prop := adim vp = 3%nat -> (6 <= length b)%nat.
Lemma not_short vp : usual_box vp -> box_too_short vp b = false.
Proof. unfold box_too_short. intros U. destruct (Nat.eqb_spec (adim vp) 3) as [E|]; [|reflexivity]. cbn [andb]. apply Nat.ltb_ge, U, E. Qed.
Lemma stages_ok vp1 a1 : like a1 vp1 -> filled vp1 -> usual_box vp1 -> stages_call true vp1 a1 = stages vp1 a1.
Proof.
  intros L F U. unfold stages_call, stages. rewrite courant_like by exact L. destruct (courant vp1 a1 _ _ _) as [a2| |] eqn:E2; [|reflexivity|reflexivity]. cbn [sbind].
  pose proof (like_courant _ _ _ _ _ _ L E2) as L2. destruct (gradation a2 (o_grade o) elen) as [a3| |] eqn:E3; [|reflexivity|reflexivity]. cbn [sbind].
  pose proof (like_trans _ _ _ (like_gradation _ _ _ _ E3) L2) as L3. unfold pad_call, domain_pad. destruct (Rltb (o_domain_pad o) 0); [reflexivity|]. destruct (Rgtb (o_domain_pad o) 0) eqn:PAD.
  - rewrite (not_short vp1 U), !filled_entries, (proj1 L3), Nat.eqb_refl by (try exact F; apply (filled_like _ _ L3 F)). cbn [orb negb]. destruct (pad_counts vp1 b (o_domain_pad o)) as ((p0, p1), p2).
    destruct (pad_it _ p0 p1 p2 (amax a3) a3) as [a4| |] eqn:P1; [|reflexivity|reflexivity]. cbn [sbind]. destruct (pad_it _ p0 p1 p2 (amax vp1) vp1) as [vp2| |] eqn:P2; [|reflexivity|reflexivity]. cbn [sbind].
    pose proof (like_pad _ _ _ _ _ _ _ _ _ _ L3 P1 P2) as L4. unfold interpolant_call. rewrite (proj2 (same_like _ _) L4). cbn [negb].
    assert (box_too_short vp2 (padded_bbox (adim vp1) b (o_domain_pad o)) = false) as ->.
    { unfold box_too_short. rewrite (proj1 (pad_dims _ _ _ _ _ _ _ P2)). unfold padded_bbox. destruct (Nat.eqb (adim vp1) 3); reflexivity. }
    destruct (build_interpolant rnd a4 _); reflexivity.
  - cbn [sbind]. unfold interpolant_call. rewrite (not_short vp1 U), (proj2 (same_like _ _) L3). cbn [negb orb]. destruct (build_interpolant rnd a3 b); reflexivity.
Qed.
(** shapes that do not fit each other are refused in the end *)
Lemma pad_refused a3 vp1 : filled vp1 -> ~ like a3 vp1 -> exists e,
  sbind (pad_call a3 vp1 b (o_pad_style o) (o_domain_pad o)) (fun r => let '(a4, vp2, b') := r in
  sbind (interpolant_call rnd a4 vp2 b') (fun f => SzOk (b', f, o_hmin o))) = SzErr e.
Proof.
  intros F N. unfold pad_call, domain_pad. destruct (Rltb (o_domain_pad o) 0); [eexists; reflexivity|]. destruct (Rgtb (o_domain_pad o) 0).
  - destruct (box_too_short vp1 b); [eexists; reflexivity|]. destruct (no_entries a3 || no_entries vp1 || _) eqn:Q; [eexists; reflexivity|]. destruct (pad_counts vp1 b (o_domain_pad o)) as ((p0, p1), p2).
    destruct (pad_it _ p0 p1 p2 (amax a3) a3) as [a4|e|] eqn:P1; [|eexists; reflexivity|exfalso; exact (pad_finite _ _ _ _ _ _ P1)]. cbn [sbind].
    destruct (pad_it _ p0 p1 p2 (amax vp1) vp1) as [vp2|e|] eqn:P2; [|eexists; reflexivity|exfalso; exact (pad_finite _ _ _ _ _ _ P2)]. cbn [sbind]. unfold interpolant_call.
    destruct (box_too_short _ _); [eexists; reflexivity|]. assert (same_shape a4 vp2 = false) as ->; [|eexists; reflexivity].
    apply same_false. intros (A & A0 & A1 & A2). apply N. destruct (pad_dims _ _ _ _ _ _ _ P1) as (B & B0 & B1 & B2), (pad_dims _ _ _ _ _ _ _ P2) as (C & C0 & C1 & C2). repeat split; lia.
  - cbn [sbind]. unfold interpolant_call. destruct (box_too_short vp1 b); [eexists; reflexivity|]. rewrite (proj2 (same_false _ _) N). eexists. reflexivity.
Qed.
End Stages.
Lemma stages_grade rnd o b vp a n m : 0 < INR n -> 0 < INR m -> stages rnd o b ((bget b 1 - bget b 0) / INR m) vp a = stages rnd (with_grade o (o_grade o * (INR n / INR m))) b ((bget b 1 - bget b 0) / INR n) vp a.
Proof. intros N M. unfold stages. cbn [with_grade o_cr_max o_dt o_space_order o_grade o_pad_style o_domain_pad o_hmin]. destruct (courant vp a _ _ _) as [a2| |]; cbn [sbind]; [|reflexivity|reflexivity]. rewrite (gradation_points a2 _ _ n m) by assumption. reflexivity. Qed.
Lemma function_stages uf rnd o b vp : size_function uf rnd o b vp =
  sbind (prepare_vp o vp) (fun vp1 => match bbox_dim b with Err e => SzErr e | Ok _ => sbind (initial_size uf o vp1) (fun a0 => stages rnd o b ((bget b 1 - bget b 0) / INR (n0 vp1)) vp1 (clamp (o_hmin o) (o_hmax o) a0)) end).
Proof.
  unfold size_function, get_sizing, stages. destruct (prepare_vp o vp) as [vp1| |]; [|reflexivity|reflexivity]. cbn [sbind]. destruct (bbox_dim b); [|reflexivity]. destruct (initial_size uf o vp1) as [a0| |]; [|reflexivity|reflexivity]. cbn [sbind].
  destruct (courant _ _ _ _ _) as [a2| |]; [|reflexivity|reflexivity]. cbn [sbind]. destruct (gradation _ _ _) as [a3| |]; [|reflexivity|reflexivity]. cbn [sbind]. reflexivity.
Qed.
Lemma call_stages uf rnd tuple o b vp nz nx ny : sizing_call uf rnd true tuple o b (Ok (vp, nz, nx, ny)) =
  sbind (prepare_vp o vp) (fun vp1 => match bbox_dim b with Err e => SzErr e | Ok dim => match constant_size dim (o_hmin o) nz nx ny with Err e => SzErr e | Ok a =>
    sbind (if Rgtb (o_wl o) 0 || Rgtb (o_grad o) 0 then initial_size uf o vp1 else SzOk a) (fun a0 => match nz with
      | Some (S n) => stages_call rnd o b ((bget b 1 - bget b 0) / INR (S n)) tuple vp1 (clamp (o_hmin o) (o_hmax o) a0)
      | _ => sbind (courant_call vp1 (clamp (o_hmin o) (o_hmax o) a0) (o_cr_max o) (o_dt o) (o_space_order o)) (fun _ => SzErr OtherError) end) end end).
Proof. cbn [sizing_call]. destruct (prepare_vp o vp) as [vp1| |]; [|reflexivity|reflexivity]. cbn [sbind]. destruct (bbox_dim b) as [dim|]; [|reflexivity]. destruct (constant_size _ _ _ _ _); [|reflexivity]. cbn [negb].
  destruct (if _ || _ then _ else _) as [a0| |]; [|reflexivity|reflexivity]. cbn [sbind]. destruct nz as [[|n]|]; reflexivity.
Qed.
