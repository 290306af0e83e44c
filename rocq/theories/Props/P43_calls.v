(** C107: generate_mesh and sliver_removal as they are called: keywords that change nothing, defaults, order, refused values. *)
From Coq Require Import String List Reals Bool Arith ZArith Permutation Lia Lra.
From Verif Require Import Model.Base Model.SDF Model.Mesh Model.Laplace Model.Dihedral Model.Options Model.Generator Model.Calls Spec.OptionNames Spec.Keywords Spec.Dihedral
  Proofs.ListAux Proofs.DihedralProofs Proofs.OptionsProofs Proofs.CallProofs Props.P09_slivers Props.P18_generate Props.P19_sliver_removal.
Import ListNotations.
Local Open Scope R_scope.

(** Two calls that differ only in ignored keywords give the same outcome: same mesh, same error, same number of triangulations. *)
Theorem C107_ignored_keywords : forall rand B d s kw kw' fuel, known kw -> known kw' -> same_except (mesh_ignored d s kw) kw kw' ->
  call_generate_mesh rand B d s kw fuel = call_generate_mesh rand B d s kw' fuel.
Proof. exact call_same. Qed.
Print Assumptions C107_ignored_keywords.
(** sliver_removal ignores the documented pfix and axis, and all the options of the initial points. *)
Theorem C107_sliver_ignored : forall B rank points d s kw kw' fuel, known kw -> known kw' -> same_except (sliver_ignored d s) kw kw' ->
  call_sliver_removal B rank points d s kw fuel = call_sliver_removal B rank points d s kw' fuel.
Proof. exact sliver_same. Qed.
Print Assumptions C107_sliver_ignored.

(** Verbosity changes what is printed only: any two accepted values. *)
Definition verbosity_ok (a : arg) : Prop := exists x, number a = Ok x /\ (x = 0 \/ 1 <= x).
Lemma check_verbose v kw : known kw -> verbosity_ok v -> check_call (("verbose"%string, v) :: kw) = Ok tt.
Proof.
  intros K (x & N & X). unfold check_call. rewrite parse_known by (apply known_cons; [cbn; tauto|exact K]). cbn [rbind]. unfold get_num.
  rewrite lookup_plain. cbn [given String.eqb Ascii.eqb Bool.eqb option_map].
  assert (exists n, pyval_of v = VNum n /\ nval n = x) as (n & -> & E).
  { destruct v as [|b|n|l|l|l|l|t]; try discriminate; cbn in N; injection N as <-; [|exists n; split; reflexivity].
    exists (PInt (if b then 1 else 0)). split; [reflexivity|]. destruct b; reflexivity. }
  cbn [rbind]. unfold select_verbosity. rewrite E. destruct X as [-> | X].
  - rewrite (proj2 (Reqb_true 0 0)) by reflexivity. reflexivity.
  - rewrite (proj2 (Reqb_false x 0)) by lra. destruct (Reqb x 1) eqn:Q; [reflexivity|]. apply Reqb_false in Q. unfold Rgtb.
    rewrite (proj2 (Rltb_true 1 x)) by lra. reflexivity.
Qed.
Lemma given_other k k' v kw : k <> k' -> given k ((k', v) :: kw) = given k kw.
Proof. intros N. cbn [given]. destruct (String.eqb_spec k k'); [contradiction|reflexivity]. Qed.
Lemma opt_other k k' v v0 kw : k <> k' -> opt k v0 ((k', v) :: kw) = opt k v0 kw.
Proof. intros N. unfold opt. rewrite given_other by exact N. reflexivity. Qed.
Ltac differ := let X := fresh in intros X; discriminate X.
Theorem C107_verbose : forall rand B d s kw v v' fuel, known kw -> verbosity_ok v -> verbosity_ok v' ->
  call_generate_mesh rand B d s (("verbose"%string, v) :: kw) fuel = call_generate_mesh rand B d s (("verbose"%string, v') :: kw) fuel.
Proof.
  intros rand B d s kw v v' fuel K V V'. unfold call_generate_mesh. rewrite !check_verbose by assumption. cbn [rbind].
  rewrite (read_domain_same box_fd d s _ (("verbose"%string, v') :: kw)) by (intros _; rewrite !given_other by differ; reflexivity).
  destruct (read_domain box_fd d s (("verbose"%string, v') :: kw)) as [[d1 s1]|e]; [|reflexivity]. cbn [rbind fst].
  assert (RO : read_options d1 s (("verbose"%string, v) :: kw) = read_options d1 s (("verbose"%string, v') :: kw)).
  { unfold read_options. rewrite (h0_same s _ (("verbose"%string, v') :: kw)) by (intros _; rewrite !given_other by differ; reflexivity).
    rewrite !opt_other by differ. reflexivity. }
  rewrite RO. destruct (read_options d1 s (("verbose"%string, v') :: kw)) as [o|e]; [|reflexivity]. cbn [rbind]. rewrite !opt_other by differ.
  rewrite (subdomains_same _ (("verbose"%string, v') :: kw)).
  - reflexivity.
  - rewrite !given_other by differ. reflexivity.
  - intros _. rewrite !given_other by differ. reflexivity.
Qed.
Print Assumptions C107_verbose.

(** mesh_improvement does nothing in 3D. *)
Theorem C107_improvement_3d : forall rand B b c f s kw v v' fuel, known kw -> length b = 6%nat ->
  match s with SizeFunctionV b1 _ _ => length b1 = 6%nat | _ => True end ->
  call_generate_mesh rand B (GeomV true b c f) s (("mesh_improvement"%string, v) :: kw) fuel =
  call_generate_mesh rand B (GeomV true b c f) s (("mesh_improvement"%string, v') :: kw) fuel.
Proof.
  intros rand B b c f s kw v v' fuel K L LS. set (kw1 := ("mesh_improvement"%string, v) :: kw). set (kw2 := ("mesh_improvement"%string, v') :: kw).
  assert (IN : In "mesh_improvement"%string mesh_option_names) by (cbn; tauto).
  assert (G : forall k, k <> "mesh_improvement"%string -> given k kw1 = given k kw2) by (intros k N; unfold kw1, kw2; rewrite !given_other by exact N; reflexivity).
  unfold call_generate_mesh. rewrite (check_same kw1 kw2) by (try (apply known_cons; assumption); apply G; differ).
  destruct (check_call kw2) as [[]|e]; [|reflexivity]. cbn [rbind].
  rewrite (read_domain_same box_fd (GeomV true b c f) s kw1 kw2) by discriminate.
  destruct (read_domain box_fd (GeomV true b c f) s kw2) as [[d1 s1]|e] eqn:RD; [|reflexivity]. cbn [rbind fst].
  assert (DIM : Nat.div2 (length (full_bbox d1 s1)) <> 2%nat).
  { unfold read_domain in RD. cbn [dom_kind unpack_domain] in RD. destruct (check_bbox b) as [[]|]; [|discriminate]. cbn [rbind fst snd] in RD.
    destruct (unpack_sizing (size_kind s)) as [bh|]; [|discriminate]. cbn [rbind] in RD.
    destruct (negb _); [discriminate|]. unfold used_domain in RD.
    assert (L6 : exists x1 x2 x3 x4 x5 x6, b = [x1;x2;x3;x4;x5;x6]) by (destruct b as [|x1 [|x2 [|x3 [|x4 [|x5 [|x6 [|]]]]]]]; try discriminate L; do 6 eexists; reflexivity).
    destruct L6 as (x1 & x2 & x3 & x4 & x5 & x6 & ->).
    destruct s as [b1 h g|g|h|]; cbn [size_of size_bbox rbind] in RD; injection RD as <- <-; try (cbn; lia).
    destruct b1 as [|y1 [|y2 [|y3 [|y4 [|y5 [|y6 [|]]]]]]]; try discriminate LS. cbn. lia. }
  assert (RO : read_options d1 s kw1 = rbind (read_options d1 s kw2) (fun o => Ok (vary o (truth (opt "mesh_improvement" (ABool true) kw1)) (o_r0m_is_h0 o)))).
  { rewrite (read_options_same d1 s kw2 kw1).
    - destruct (read_options d1 s kw2) as [o|e] eqn:Q; [|reflexivity]. cbn [rbind]. destruct (read_options_inv _ _ _ _ Q) as (_ & -> & _).
      rewrite (opt_same "r0m_is_h0" _ kw1 kw2) by (apply G; differ). reflexivity.
    - intros k IK. symmetry. apply G. intros ->. cbn in IK. intuition discriminate.
    - intros _. symmetry. apply G. differ.
    - intros _. symmetry. apply G. differ. }
  rewrite RO. destruct (read_options d1 s kw2) as [o|e]; [|reflexivity]. cbn [rbind].
  rewrite (opt_same "seed" _ kw1 kw2) by (apply G; differ).
  rewrite (subdomains_same kw1 kw2) by (intros; apply G; differ).
  set (r := rand (opt "seed" (ANum (PInt 0)) kw2)). destruct (subdomains_of kw2) as [subs|e].
  - rewrite vary_subs. symmetry. apply mesh_same; [right; split; reflexivity|right; right; exact DIM].
  - rewrite (prepare_same B r r d1 s1 o) by (right; split; reflexivity).
    destruct (prepare (with_rand B r) d1 s1 o) as [[P p]|e']; reflexivity.
Qed.
Print Assumptions C107_improvement_3d.

(** The order of the keywords is irrelevant. *)
Theorem C107_order : forall rand B d s kw kw' fuel, known kw -> NoDup (map fst kw) -> Permutation kw kw' ->
  call_generate_mesh rand B d s kw fuel = call_generate_mesh rand B d s kw' fuel.
Proof.
  intros rand B d s kw kw' fuel K N P. apply call_same; [exact K| |intros k _; apply given_perm; assumption].
  intros k IN. apply K. eapply Permutation_in; [apply Permutation_map, Permutation_sym; exact P|exact IN].
Qed.
Print Assumptions C107_order.
Theorem C107_sliver_order : forall B rank points d s kw kw' fuel, known kw -> NoDup (map fst kw) -> Permutation kw kw' ->
  call_sliver_removal B rank points d s kw fuel = call_sliver_removal B rank points d s kw' fuel.
Proof.
  intros B rank points d s kw kw' fuel K N P. apply sliver_same; [exact K| |intros k _; apply given_perm; assumption].
  intros k IN. apply K. eapply Permutation_in; [apply Permutation_map, Permutation_sym; exact P|exact IN].
Qed.
Print Assumptions C107_sliver_order.

(** An option left out behaves as its documented default. *)
Lemma opt_default k v kw : given k kw = None -> forall k' v', k' <> k \/ v' = v -> opt k' v' ((k, v) :: kw) = opt k' v' kw.
Proof.
  intros E k' v' D. unfold opt. cbn [given]. destruct (String.eqb_spec k' k) as [->|N]; [|reflexivity]. rewrite E. destruct D as [D|D]; [contradiction|symmetry; exact D].
Qed.
Lemma plain_default k v kw d : given k kw = None -> (k = "verbose"%string -> pyval_of v = VNum d) ->
  get_num "verbose" d (plain ((k, v) :: kw)) = get_num "verbose" d (plain kw).
Proof.
  intros E V. unfold get_num. rewrite !lookup_plain. cbn [given]. destruct (String.eqb_spec "verbose" k) as [<-|N]; [|reflexivity]. rewrite E. cbn [option_map]. rewrite (V eq_refl). reflexivity.
Qed.
Ltac keys := let X := fresh in (left; intros X; discriminate X) || (right; reflexivity).
Theorem C107_defaults : forall rand B d s kw k v fuel, known kw -> In (k, v) mesh_defaults -> given k kw = None ->
  call_generate_mesh rand B d s ((k, v) :: kw) fuel = call_generate_mesh rand B d s kw fuel.
Proof.
  intros rand B d s kw k v fuel K IN E.
  assert (KN : In k mesh_option_names) by (cbn in IN; repeat (destruct IN as [IN|IN]; [injection IN as <- <-; cbn; tauto|]); destruct IN).
  assert (CC : check_call ((k, v) :: kw) = check_call kw).
  { unfold check_call. rewrite (parse_known kw K), (parse_known ((k, v) :: kw)) by (apply known_cons; assumption). cbn [rbind]. rewrite plain_default; [reflexivity|exact E|].
    intros ->. cbn in IN. repeat (destruct IN as [IN|IN]; [try discriminate IN; injection IN as <-; reflexivity|]). destruct IN. }
  assert (NB : k <> "bbox"%string /\ k <> "h0"%string /\ k <> "subdomains"%string /\ k <> "points"%string) by (cbn in IN; repeat (destruct IN as [IN|IN]; [injection IN as <- <-; repeat split; differ|]); destruct IN).
  destruct NB as (NB & NH & NS & NP).
  unfold call_generate_mesh. rewrite CC. destruct (check_call kw) as [[]|e]; [|reflexivity]. cbn [rbind].
  rewrite (read_domain_same box_fd d s ((k, v) :: kw) kw) by (intros _; apply given_other; congruence).
  destruct (read_domain box_fd d s kw) as [[d1 s1]|e]; [|reflexivity]. cbn [rbind fst].
  assert (OP : forall k' v', In (k', v') [("geps_mult", ANum (PFloat (1 / 10))); ("points", ANone); ("pfix", ANone); ("seed", ANum (PInt 0)); ("max_iter", ANum (PInt 50));
     ("delta_t", ANum (PFloat (3 / 10))); ("perform_checks", ABool false); ("mesh_improvement", ABool true); ("r0m_is_h0", ABool false)]%string -> opt k' v' ((k, v) :: kw) = opt k' v' kw).
  { intros k' v' IO. apply opt_default; [exact E|]. destruct (string_dec k' k) as [->|N]; [right|left; exact N].
    replace (3 / 10) with (30 / 100) in IO by field.
    cbn in IN. repeat (destruct IN as [IN|IN]; [injection IN as <- <-; cbn in IO; repeat (destruct IO as [IO|IO]; [first [discriminate IO | injection IO as <-; reflexivity]|]); destruct IO|]). destruct IN. }
  assert (RO : read_options d1 s ((k, v) :: kw) = read_options d1 s kw).
  { unfold read_options. rewrite (h0_same s ((k, v) :: kw) kw) by (intros _; apply given_other; congruence).
    rewrite !OP by (cbn; tauto). reflexivity. }
  rewrite RO. destruct (read_options d1 s kw) as [o|e]; [|reflexivity]. cbn [rbind]. rewrite (OP "seed"%string) by (cbn; tauto).
  rewrite (subdomains_same ((k, v) :: kw) kw) by (intros; apply given_other; congruence). reflexivity.
Qed.
Print Assumptions C107_defaults.
Theorem C107_sliver_defaults : forall B rank points d s kw k v fuel, known kw -> In (k, v) sliver_defaults_doc -> given k kw = None ->
  call_sliver_removal B rank points d s ((k, v) :: kw) fuel = call_sliver_removal B rank points d s kw fuel.
Proof.
  intros B rank points d s kw k v fuel K IN E.
  assert (KN : In k mesh_option_names) by (cbn in IN; repeat (destruct IN as [IN|IN]; [injection IN as <- <-; cbn; tauto|]); destruct IN).
  assert (CC : check_call ((k, v) :: kw) = check_call kw).
  { unfold check_call. rewrite (parse_known kw K), (parse_known ((k, v) :: kw)) by (apply known_cons; assumption). cbn [rbind]. rewrite plain_default; [reflexivity|exact E|].
    intros ->. cbn in IN. repeat (destruct IN as [IN|IN]; [try discriminate IN; injection IN as <-; reflexivity|]). destruct IN. }
  assert (NB : k <> "bbox"%string /\ k <> "h0"%string) by (cbn in IN; repeat (destruct IN as [IN|IN]; [injection IN as <- <-; repeat split; differ|]); destruct IN).
  destruct NB as (NB & NH).
  unfold call_sliver_removal. destruct (0 <? rank)%nat; [reflexivity|]. rewrite CC. destruct (check_call kw) as [[]|e]; [|reflexivity]. cbn [rbind].
  destruct (existsb _ points); [reflexivity|].
  rewrite (read_domain_same cube_fd d s ((k, v) :: kw) kw) by (intros _; apply given_other; congruence).
  destruct (read_domain cube_fd d s kw) as [[d1 s1]|e]; [|reflexivity]. cbn [rbind fst].
  assert (OP : forall k' v', In (k', v') [("max_iter", ANum (PInt 50)); ("geps_mult", ANum (PFloat (1 / 10))); ("min_dh_angle_bound", ANum (PFloat 10)); ("max_dh_angle_bound", ANum (PFloat 180));
     ("gamma", ANum (PFloat 1)); ("perform_checks", ABool false); ("preserve", ABool false)]%string -> opt k' v' ((k, v) :: kw) = opt k' v' kw).
  { intros k' v' IO. apply opt_default; [exact E|]. destruct (string_dec k' k) as [->|N]; [right|left; exact N].
    cbn in IN. repeat (destruct IN as [IN|IN]; [injection IN as <- <-; cbn in IO; repeat (destruct IO as [IO|IO]; [first [discriminate IO | injection IO as <-; reflexivity]|]); destruct IO|]). destruct IN. }
  assert (RO : read_sliver_options s ((k, v) :: kw) = read_sliver_options s kw).
  { unfold read_sliver_options. rewrite (h0_same s ((k, v) :: kw) kw) by (intros _; apply given_other; congruence). rewrite !OP by (cbn; tauto). reflexivity. }
  rewrite RO. reflexivity.
Qed.
Print Assumptions C107_sliver_defaults.

(** The documented default of max_dh_angle_bound is 170 degrees; leaving it out means 180, which makes a difference. *)
Definition spindle : list (list R) := [[0;0;1];[0;1;0];[-12;0;0];[12;0;0]].
Definition spindle_backend : backend :=
  mkBackend (fun _ _ => (spindle, [[0;1;2;3]%nat])) (nodup key_dec) (nodup row_dec) (fun _ x => map up x) ve_pairs (fun p _ => p) (fun n => repeat 0 n).
Lemma cos_10 : cos (PI / 18) <= 987 / 1000.
Proof.
  pose proof PI2_3_2. pose proof PI_4. assert (P : 1 / 6 <= PI / 18) by (unfold PI2 in *; lra).
  apply Rle_trans with (cos (1 / 6)); [apply cos_decr_1; lra|].
  destruct (cos_bound (1 / 6) 0) as [_ U]; [lra|lra|]. eapply Rle_trans; [exact U|]. unfold cos_approx, cos_term. cbn [sum_f_R0 Nat.mul Nat.add fact INR pow]. lra.
Qed.
Lemma spindle_low : ~ bad_angle (degrees 10) (degrees 180) spindle.
Proof.
  intros (a & b & c & d & phi & P & (AB & U & W & (G0 & GP) & E) & X). destruct X as [X|X]; [|unfold degrees in X; lra].
  assert (sqrt 3 / 2 <= cos phi) as CP.
  { rewrite <- cos_PI6. apply cos_decr_1; pose proof PI_RGT_0; unfold degrees in X; lra. }
  assert (Linear.inner (perp (vec a b) (vec a c)) (perp (vec a b) (vec a d)) <= 0 \/
    4 * Linear.inner (perp (vec a b) (vec a c)) (perp (vec a b) (vec a d)) ^ 2 < 3 * (Linear.inner (perp (vec a b) (vec a c)) (perp (vec a b) (vec a c)) * Linear.inner (perp (vec a b) (vec a d)) (perp (vec a b) (vec a d)))) as K.
  { clear - P. unfold spindle in P. apply perm4 in P.
    repeat match goal with H : _ \/ _ |- _ => destruct H | H : _ /\ _ |- _ => destruct H | H : Permutation [_;_;_] _ |- _ => apply perm3 in H | H : Permutation [_;_] _ |- _ => apply perm2 in H end; subst;
    unfold vec, perp, Linear.vtimes; cbn [map Linear.vplus Linear.inner]; first [left; lra | right; lra]. }
  rewrite E in K. set (u := Linear.inner (perp _ _) (perp _ (vec a c))) in *. set (w := Linear.inner (perp _ (vec a d)) _) in *.
  assert (u = sqrt u * sqrt u) as EU by (symmetry; apply sqrt_sqrt; lra). assert (w = sqrt w * sqrt w) as EW by (symmetry; apply sqrt_sqrt; lra).
  assert (0 < sqrt u) by (apply sqrt_lt_R0; lra). assert (0 < sqrt w) by (apply sqrt_lt_R0; lra). assert (sqrt 3 * sqrt 3 = 3) by (apply sqrt_sqrt; lra).
  assert (0 < sqrt 3) by (apply sqrt_lt_R0; lra).
  assert (3 / 4 <= cos phi * cos phi) by nra. assert (0 < u * w) by (apply Rmult_lt_0_compat; assumption). destruct K as [K|K].
  - assert (0 < cos phi * sqrt u * sqrt w) by (apply Rmult_lt_0_compat; [apply Rmult_lt_0_compat|]; lra). lra.
  - replace ((cos phi * sqrt u * sqrt w) ^ 2) with (cos phi * cos phi * ((sqrt u * sqrt u) * (sqrt w * sqrt w))) in K by ring. rewrite <- EU, <- EW in K. nra.
Qed.
Lemma spindle_high : bad_angle (degrees 10) (degrees 170) spindle.
Proof.
  set (phi := acos (- (287 / 289))). assert (CP : cos phi = - (287 / 289)) by (apply cos_acos; lra). assert (BP : 0 <= phi <= PI) by apply acos_bound.
  exists [0;0;1], [0;1;0], [-12;0;0], [12;0;0], phi. split; [apply Permutation_refl|]. split.
  - unfold dihedral, angle_between, vec, perp, Linear.vtimes. cbn [map Linear.vplus Linear.inner]. split; [lra|]. split; [lra|]. split; [lra|]. split; [exact BP|]. rewrite CP, Rmult_assoc.
    match goal with |- _ = _ * (sqrt ?x * sqrt ?y) => replace x with (289 / 2) by field; replace y with (289 / 2) by field end.
    rewrite sqrt_sqrt by lra. field.
  - right. apply Rnot_le_lt. intros L. unfold degrees in L. pose proof PI_RGT_0. assert (C : cos (170 * PI / 180) <= cos phi) by (apply cos_decr_1; lra).
    replace (170 * PI / 180) with (- (PI / 18) + PI) in C by field. rewrite neg_cos, cos_neg, CP in C. pose proof cos_10. lra.
Qed.
Definition spindle_call (l : call_kw) := call_sliver_removal spindle_backend 0 spindle (FunV (fun _ => -1)) (SizeNumV (PInt 1))
  ((("bbox"%string, ATuple (map PFloat [-12;12;0;1;0;1])) :: l)) 1.
Lemma spindle_run l hi : known l -> (forall k, In k (map fst l) -> k = "max_dh_angle_bound"%string) ->
  number (opt "max_dh_angle_bound" (ANum (PFloat 180)) l) = Ok hi ->
  spindle_call l = inl (sliver_loop spindle_backend (mkSliver (fun _ => -1) 1 (deps_of 1) (1 / 10 * 1) (10 * PI / 180) (hi * PI / 180) 1 false 50 false) 1 0 (1 / 10) None spindle).
Proof.
  intros K ON H. unfold spindle_call, call_sliver_removal. cbn [Nat.ltb Nat.leb]. set (kw := _ :: l).
  assert (G : forall k, k <> "bbox"%string -> k <> "max_dh_angle_bound"%string -> given k kw = None).
  { intros k N1 N2. unfold kw. rewrite given_other by exact N1. apply given_none. intros X. apply N2, ON, X. }
  assert (CC : check_call kw = Ok tt).
  { unfold check_call. rewrite parse_known by (unfold kw; apply known_cons; [cbn; tauto|exact K]). cbn [rbind]. unfold get_num. rewrite lookup_plain, (G "verbose"%string) by differ. cbn [option_map rbind].
    unfold select_verbosity. cbn [nval]. rewrite (proj2 (Reqb_false 1 0)) by lra. rewrite (proj2 (Reqb_true 1 1)) by reflexivity. reflexivity. }
  rewrite CC. cbn [rbind]. replace (existsb _ spindle) with false by reflexivity.
  unfold read_domain. cbn [dom_kind unpack_domain]. rewrite lookup_plain. unfold kw at 1. cbn [given String.eqb Ascii.eqb Bool.eqb option_map pyval_of map]. cbn [check_bbox existsb is_int orb rbind fst snd size_kind unpack_sizing negb used_domain size_of size_bbox].
  unfold read_sliver_options. cbn [h0_of rbind]. unfold opt in *.
  rewrite !(G "max_iter"%string), (G "geps_mult"%string), (G "min_dh_angle_bound"%string), (G "gamma"%string), (G "perform_checks"%string), (G "preserve"%string) by differ.
  unfold kw at 1. rewrite given_other by differ. cbn [number rbind nval truth]. rewrite H. cbn [rbind].
  unfold sliver_removal. cbn [Nat.ltb Nat.leb]. replace (existsb _ spindle) with false by reflexivity. cbn [size_bbox dom_fd dom_of size_hmin so_max_iter so_geps_mult so_min_deg so_max_deg so_gamma so_preserve so_checks].
  rewrite !(proj2 (Rltb_false _ _)) by lra. reflexivity.
Qed.
Theorem C107_max_angle_default_refuted : exists t, In ("max_dh_angle_bound"%string) mesh_option_names /\
  spindle_call [] = inl (Some (Ok (spindle, t), 1%nat)) /\ spindle_call [("max_dh_angle_bound"%string, ANum (PFloat 180))] = spindle_call [] /\
  spindle_call [("max_dh_angle_bound"%string, ANum (PFloat 170))] = inl None.
Proof.
  exists [orient spindle [0;1;2;3]%nat]. split; [cbn; tauto|].
  assert (K : forall x, known [("max_dh_angle_bound"%string, ANum (PFloat x))]) by (intros x k [<- | []]; cbn; tauto).
  assert (ON : forall x k, In k (map fst [("max_dh_angle_bound"%string, ANum (PFloat x))]) -> k = "max_dh_angle_bound"%string) by (intros x k [<- | []]; reflexivity).
  rewrite (spindle_run [] 180); [|intros k []|intros k []|reflexivity].
  rewrite (spindle_run _ 180 (K 180) (ON 180) eq_refl), (spindle_run _ 170 (K 170) (ON 170) eq_refl).
  assert (EO : remove_outside 3 (fun _ => -1) (1 / 10 * 1) spindle [[0;1;2;3]%nat] = [[0;1;2;3]%nat]) by (unfold remove_outside; cbn [filter]; rewrite (proj2 (Rltb_true _ _)) by lra; reflexivity).
  assert (SS : forall lo hi e, In e (slivers spindle [[0;1;2;3]%nat] lo hi) <-> (e < 1)%nat /\ bad_angle lo hi spindle).
  { intros lo hi e. destruct (C55_slivers_exactly spindle [[0;1;2;3]%nat] lo hi) as [_ SP].
    { intros r [<- | []]. split; [reflexivity|]. intros v H. cbn in H. destruct H as [<- | [<- | [<- | [<- | []]]]]; reflexivity. }
    rewrite (SP e). cbn [length]. split; intros [L BA]; (split; [exact L|]); assert (e = 0%nat) as -> by lia; exact BA. }
  assert (S1 : slivers spindle [[0;1;2;3]%nat] (10 * PI / 180) (180 * PI / 180) = []).
  { destruct (slivers _ _ _ _) as [|e l] eqn:Q; [reflexivity|exfalso]. pose proof (proj1 (SS (10 * PI / 180) (180 * PI / 180) e)) as X. rewrite Q in X. apply spindle_low. exact (proj2 (X ltac:(left; reflexivity))). }
  assert (S2 : slivers spindle [[0;1;2;3]%nat] (10 * PI / 180) (170 * PI / 180) <> []).
  { intros Q. pose proof (proj2 (SS (10 * PI / 180) (170 * PI / 180) 0%nat) (conj Nat.lt_0_1 spindle_high)) as X. rewrite Q in X. destruct X. }
  assert (EF : run_fix spindle_backend spindle [[0;1;2;3]%nat] = Ok (spindle, [orient spindle [0;1;2;3]%nat])).
  { unfold run_fix, fix_mesh. cbn [b_uniqK b_uniqR b_key spindle_backend spindle map find_pos]. rewrite !up_IZR. fold spindle.
    match goal with |- context [nodup key_dec ?l] => let v := eval vm_compute in (nodup key_dec l) in change (nodup key_dec l) with v end.
    vm_compute. reflexivity. }
  cbn [sliver_loop b_tri spindle_backend]. fold spindle_backend. cbn [s_fd s_geps s_lo s_hi s_max_iter s_preserve].
  rewrite EO, S1, EF. rewrite !(proj2 (Reqb_false _ _)) by (cbn [INR]; lra). split; [reflexivity|]. split; [reflexivity|].
  destruct (slivers _ _ _ (170 * PI / 180)); [destruct S2; reflexivity|reflexivity].
Qed.
Print Assumptions C107_max_angle_default_refuted.

(** A call in full: a box domain or a function with its box, a scalar, a function or a size function, and every option given. *)
Definition all_options (verbose max_iter seed : Z) (checks : bool) (pfix points : option (list pt)) (dt geps h0 : R) (improve r0m : bool) : call_kw :=
  [("verbose", ANum (PInt verbose)); ("max_iter", ANum (PInt max_iter)); ("seed", ANum (PInt seed)); ("perform_checks", ABool checks);
   ("pfix", match pfix with Some l => APoints l | None => ANone end); ("points", match points with Some l => APoints l | None => ANone end);
   ("delta_t", ANum (PFloat dt)); ("geps_mult", ANum (PFloat geps)); ("h0", ANum (PFloat h0)); ("mesh_improvement", ABool improve); ("r0m_is_h0", ABool r0m)]%string.
Lemma floats_ok b : check_bbox (map PFloat b) = Ok tt.
Proof. unfold check_bbox. replace (existsb is_int (map PFloat b)) with false; [reflexivity|]. induction b as [|x b IH]; [reflexivity|exact IH]. Qed.
Lemma floats_val b : map nval (map PFloat b) = b.
Proof. rewrite map_map. apply map_id. Qed.
Theorem C107_full_call : forall rand B D d S s b verbose max_iter seed checks pfix points dt geps h0 improve r0m fuel,
  (0 <= verbose)%Z -> (0 <= seed < 2 ^ 32)%Z -> pfix <> Some [] ->
  (D = FunV (dom_fd d) /\ d = DFunction (dom_fd d) b \/ exists o, D = GeomV true (map PFloat b) (d_corners o) (d_eval o) /\ d = DObject o /\ d_bbox o = b /\ d_dim o = Nat.div2 (length b)) ->
  (S = SizeNumV (PFloat h0) /\ s = SScalar h0 \/ (exists f, S = SizeFunV f /\ s = SFunction f) \/ (exists b1 h f, S = SizeFunctionV (map PFloat b1) (PFloat h) f /\ s = SObject b1 h f)) ->
  call_generate_mesh rand B D S (("bbox"%string, ATuple (map PFloat b)) :: all_options verbose max_iter seed checks pfix points dt geps h0 improve r0m) fuel =
  generate_mesh (with_rand B (rand (ANum (PInt seed)))) d s
    (mkOpts (IZR max_iter) checks (match pfix with Some l => l | None => [] end) points dt geps None improve r0m (match s with SFunction _ => Some h0 | _ => None end)) fuel.
Proof.
  intros rand B D d S s b verbose max_iter seed checks pfix points dt geps h0 improve r0m fuel V SD PF HD HS. set (kw := _ :: _). unfold call_generate_mesh.
  assert (CC : check_call kw = Ok tt).
  { unfold check_call. rewrite parse_known; [|intros k IN; cbn in IN; repeat (destruct IN as [<-|IN]; [cbn; tauto|]); destruct IN].
    cbn [rbind]. unfold get_num. rewrite lookup_plain. unfold kw, all_options. cbn [given String.eqb Ascii.eqb Bool.eqb option_map pyval_of rbind].
    unfold select_verbosity. cbn [nval]. destruct (Reqb (IZR verbose) 0) eqn:Q; [reflexivity|]. apply Reqb_false in Q. destruct (Reqb (IZR verbose) 1) eqn:Q1; [reflexivity|]. apply Reqb_false in Q1.
    unfold Rgtb. rewrite (proj2 (Rltb_true 1 _)); [reflexivity|]. apply (IZR_lt 1). assert (verbose <> 0%Z) by (intros ->; apply Q; reflexivity). assert (verbose <> 1%Z) by (intros ->; apply Q1; reflexivity). lia. }
  assert (SZ : size_of S = s) by (destruct HS as [[-> ->] | [(f & -> & ->) | (b1 & h & f & -> & ->)]]; cbn [size_of nval]; rewrite ?floats_val; reflexivity).
  assert (SU : exists bh, unpack_sizing (size_kind S) = Ok bh) by (destruct HS as [[-> ->] | [(f & -> & ->) | (b1 & h & f & -> & ->)]]; cbn [size_kind unpack_sizing]; rewrite ?floats_ok; eexists; reflexivity).
  destruct SU as (bh & SU).
  assert (DU : unpack_domain (dom_kind D) (plain kw) = Ok (true, map PFloat b) /\ dom_of D (map PFloat b) = d).
  { destruct HD as [[-> E] | ([dm bb cc ff] & -> & -> & Q1 & Q2)].
    - split.
      + cbn [dom_kind unpack_domain]. rewrite lookup_plain. unfold kw. cbn [given String.eqb Ascii.eqb Bool.eqb option_map pyval_of]. rewrite floats_ok. reflexivity.
      + cbn [dom_of]. rewrite floats_val. symmetry. exact E.
    - cbn in Q1, Q2. subst. cbn [dom_kind unpack_domain dom_of d_corners d_eval]. rewrite floats_ok, floats_val, map_length. split; reflexivity. }
  destruct DU as [DU DO].
  assert (RD : read_domain box_fd D S kw = Ok (d, s)).
  { unfold read_domain. rewrite DU. cbn [rbind]. rewrite SU. cbn [rbind fst snd]. replace (negb _) with false by (destruct (fst bh); reflexivity).
    unfold used_domain. rewrite DO, SZ. destruct (size_bbox s); reflexivity. }
  rewrite CC. cbn [rbind]. rewrite RD. cbn [rbind fst].
  assert (H0 : h0_of S kw = Ok (match s with SFunction _ => Some h0 | _ => None end)) by (destruct HS as [[-> ->] | [(f & -> & ->) | (b1 & h & f & -> & ->)]]; reflexivity).
  assert (RO : read_options d S kw = Ok (mkOpts (IZR max_iter) checks (match pfix with Some l => l | None => [] end) points dt geps None improve r0m (match s with SFunction _ => Some h0 | _ => None end))).
  { unfold read_options. rewrite H0. cbn [rbind]. unfold opt, kw, all_options. cbn [given String.eqb Ascii.eqb Bool.eqb]. cbn [number rbind nval truth].
    assert (PP : points_of (match points with Some l => APoints l | None => ANone end) = Ok points) by (destruct points; reflexivity). rewrite PP. cbn [rbind].
    assert (FF : fixed_of d (size_of S) points (match pfix with Some l => APoints l | None => ANone end) = Ok (match pfix with Some l => l | None => [] end)).
    { unfold fixed_of. destruct pfix as [[|x l]|]; [destruct PF; reflexivity|reflexivity|reflexivity]. }
    rewrite FF. cbn [rbind]. replace (match points with None => _ | Some _ => Ok tt end) with (@Ok unit tt); [reflexivity|].
    destruct points; [reflexivity|]. cbn [seed_check seed_ok]. rewrite (proj2 (Z.leb_le _ _)) by lia. rewrite (proj2 (Z.ltb_lt _ _)) by lia. reflexivity. }
  rewrite RO. cbn [rbind]. replace (subdomains_of kw) with (@Ok (option (list (pt -> R))) None) by reflexivity. reflexivity.
Qed.
Print Assumptions C107_full_call.
(** subdomains: objects with a box, or functions, which make generate_mesh look at the keyword bbox again *)
Definition subdomain_is (D : dom_val) (f : pt -> R) : Prop := D = FunV f \/ exists tup b c, D = GeomV tup (map PFloat b) c f.
Definition subdomains_are (l : option (list dom_val)) (fs : option (list (pt -> R))) : Prop :=
  match l, fs with None, None => True | Some l, Some fs => Forall2 subdomain_is l fs | _, _ => False end.
Lemma unpack_all_are l fs kw b : Forall2 subdomain_is l fs -> given "bbox" kw = Some (ATuple (map PFloat b)) -> unpack_all l kw = Ok fs.
Proof.
  intros F G. induction F as [|D f l fs H F IH]; [reflexivity|]. cbn [unpack_all]. rewrite IH.
  destruct H as [-> | (tup & b' & c & ->)]; cbn [dom_kind unpack_domain fd_of]; [rewrite lookup_plain, G; cbn [option_map pyval_of]|]; rewrite floats_ok; reflexivity.
Qed.
Theorem C107_full_call_subdomains : forall rand B D d S s b subs fs verbose max_iter seed checks pfix points dt geps h0 improve r0m fuel, subdomains_are subs fs ->
  (0 <= verbose)%Z -> (0 <= seed < 2 ^ 32)%Z -> pfix <> Some [] ->
  (D = FunV (dom_fd d) /\ d = DFunction (dom_fd d) b \/ exists o, D = GeomV true (map PFloat b) (d_corners o) (d_eval o) /\ d = DObject o /\ d_bbox o = b /\ d_dim o = Nat.div2 (length b)) ->
  (S = SizeNumV (PFloat h0) /\ s = SScalar h0 \/ (exists f, S = SizeFunV f /\ s = SFunction f) \/ (exists b1 h f, S = SizeFunctionV (map PFloat b1) (PFloat h) f /\ s = SObject b1 h f)) ->
  call_generate_mesh rand B D S (("bbox"%string, ATuple (map PFloat b)) :: ("subdomains"%string, match subs with Some l => ADomains l | None => ANone end) ::
    all_options verbose max_iter seed checks pfix points dt geps h0 improve r0m) fuel =
  generate_mesh (with_rand B (rand (ANum (PInt seed)))) d s
    (mkOpts (IZR max_iter) checks (match pfix with Some l => l | None => [] end) points dt geps fs improve r0m (match s with SFunction _ => Some h0 | _ => None end)) fuel.
Proof.
  intros rand B D d S s b subs fs verbose max_iter seed checks pfix points dt geps h0 improve r0m fuel HB V SD PF HD HS. set (kw := _ :: _). unfold call_generate_mesh.
  assert (CC : check_call kw = Ok tt).
  { unfold check_call. rewrite parse_known; [|intros k IN; cbn in IN; repeat (destruct IN as [<-|IN]; [cbn; tauto|]); destruct IN].
    cbn [rbind]. unfold get_num. rewrite lookup_plain. unfold kw, all_options. cbn [given String.eqb Ascii.eqb Bool.eqb option_map pyval_of rbind].
    unfold select_verbosity. cbn [nval]. destruct (Reqb (IZR verbose) 0) eqn:Q; [reflexivity|]. apply Reqb_false in Q. destruct (Reqb (IZR verbose) 1) eqn:Q1; [reflexivity|]. apply Reqb_false in Q1.
    unfold Rgtb. rewrite (proj2 (Rltb_true 1 _)); [reflexivity|]. apply (IZR_lt 1). assert (verbose <> 0%Z) by (intros ->; apply Q; reflexivity). assert (verbose <> 1%Z) by (intros ->; apply Q1; reflexivity). lia. }
  assert (SZ : size_of S = s) by (destruct HS as [[-> ->] | [(f & -> & ->) | (b1 & h & f & -> & ->)]]; cbn [size_of nval]; rewrite ?floats_val; reflexivity).
  assert (SU : exists bh, unpack_sizing (size_kind S) = Ok bh) by (destruct HS as [[-> ->] | [(f & -> & ->) | (b1 & h & f & -> & ->)]]; cbn [size_kind unpack_sizing]; rewrite ?floats_ok; eexists; reflexivity).
  destruct SU as (bh & SU).
  assert (DU : unpack_domain (dom_kind D) (plain kw) = Ok (true, map PFloat b) /\ dom_of D (map PFloat b) = d).
  { destruct HD as [[-> E] | ([dm bb cc ff] & -> & -> & Q1 & Q2)].
    - split.
      + cbn [dom_kind unpack_domain]. rewrite lookup_plain. unfold kw. cbn [given String.eqb Ascii.eqb Bool.eqb option_map pyval_of]. rewrite floats_ok. reflexivity.
      + cbn [dom_of]. rewrite floats_val. symmetry. exact E.
    - cbn in Q1, Q2. subst. cbn [dom_kind unpack_domain dom_of d_corners d_eval]. rewrite floats_ok, floats_val, map_length. split; reflexivity. }
  destruct DU as [DU DO].
  assert (RD : read_domain box_fd D S kw = Ok (d, s)).
  { unfold read_domain. rewrite DU. cbn [rbind]. rewrite SU. cbn [rbind fst snd]. replace (negb _) with false by (destruct (fst bh); reflexivity).
    unfold used_domain. rewrite DO, SZ. destruct (size_bbox s); reflexivity. }
  rewrite CC. cbn [rbind]. rewrite RD. cbn [rbind fst].
  assert (H0 : h0_of S kw = Ok (match s with SFunction _ => Some h0 | _ => None end)) by (destruct HS as [[-> ->] | [(f & -> & ->) | (b1 & h & f & -> & ->)]]; reflexivity).
  assert (RO : read_options d S kw = Ok (mkOpts (IZR max_iter) checks (match pfix with Some l => l | None => [] end) points dt geps None improve r0m (match s with SFunction _ => Some h0 | _ => None end))).
  { unfold read_options. rewrite H0. cbn [rbind]. unfold opt, kw, all_options. cbn [given String.eqb Ascii.eqb Bool.eqb]. cbn [number rbind nval truth].
    assert (PP : points_of (match points with Some l => APoints l | None => ANone end) = Ok points) by (destruct points; reflexivity). rewrite PP. cbn [rbind].
    assert (FF : fixed_of d (size_of S) points (match pfix with Some l => APoints l | None => ANone end) = Ok (match pfix with Some l => l | None => [] end)).
    { unfold fixed_of. destruct pfix as [[|x l]|]; [destruct PF; reflexivity|reflexivity|reflexivity]. }
    rewrite FF. cbn [rbind]. replace (match points with None => _ | Some _ => Ok tt end) with (@Ok unit tt); [reflexivity|].
    destruct points; [reflexivity|]. cbn [seed_check seed_ok]. rewrite (proj2 (Z.leb_le _ _)) by lia. rewrite (proj2 (Z.ltb_lt _ _)) by lia. reflexivity. }
  rewrite RO. cbn [rbind]. assert (SS : subdomains_of kw = Ok fs).
  { unfold subdomains_of, opt. replace (given "subdomains" kw) with (Some (match subs with Some l => ADomains l | None => ANone end)) by reflexivity.
    destruct subs as [l|], fs as [fs|]; cbn [subdomains_are] in HB; [|destruct HB|destruct HB|reflexivity].
    cbn [domains_of rbind]. rewrite (unpack_all_are _ _ kw b HB) by reflexivity. reflexivity. }
  rewrite SS. reflexivity.
Qed.
Print Assumptions C107_full_call_subdomains.

(** A call is refused: an error, and nothing has been triangulated. *)
Definition refused (o : option (result (list pt * list row) * nat)) : Prop := exists e, o = Some (Err e, O).
(** A function among the subdomains needs the keyword bbox even though the domain brings its box (KeyError). *)
Theorem C107_function_subdomain_needs_bbox : forall rand B d s kw l g fuel, given "subdomains" kw = Some (ADomains l) -> In (FunV g) l -> given "bbox" kw = None ->
  refused (call_generate_mesh rand B d s kw fuel).
Proof.
  intros rand B d s kw l g fuel GS IN GB.
  assert (U : exists e, unpack_all l kw = Err e).
  { clear GS. induction l as [|x l IH]; [destruct IN|]. cbn [unpack_all]. destruct IN as [-> | IN].
    - cbn [dom_kind unpack_domain]. rewrite lookup_plain, GB. cbn [option_map rbind]. eauto.
    - destruct (unpack_domain _ _); [|cbn [rbind]; eauto]. cbn [rbind]. destruct (IH IN) as (e & ->). cbn [rbind]. eauto. }
  destruct U as (e & U). unfold call_generate_mesh, refused.
  destruct (rbind (check_call kw) _) as [[[d1 s1] o]|e1]; [|eauto]. unfold subdomains_of, opt. rewrite GS. cbn [domains_of rbind]. rewrite U. cbn [rbind].
  destruct (prepare _ d1 s1 o); eauto.
Qed.
Print Assumptions C107_function_subdomain_needs_bbox.
Lemma options_refused rand B d s kw fuel : (forall d1, exists e, read_options d1 s kw = Err e) -> refused (call_generate_mesh rand B d s kw fuel).
Proof.
  intros H. unfold call_generate_mesh, refused. destruct (check_call kw) as [[]|e]; [|cbn [rbind]; eauto]. cbn [rbind].
  destruct (read_domain box_fd d s kw) as [[d1 s1]|e]; [|cbn [rbind]; eauto]. cbn [rbind fst]. destruct (H d1) as (e & ->). cbn [rbind]. eauto.
Qed.
(** seed is documented as "float or int"; a float is refused, and so is an integer outside 0 .. 2^32 - 1 (unless points are given). *)
Theorem C107_seed : forall rand B d s kw n fuel, is_given "points" kw = false -> given "seed" kw = Some (ANum n) ->
  ~ (exists z, n = PInt z /\ (0 <= z < 2 ^ 32)%Z) -> refused (call_generate_mesh rand B d s kw fuel).
Proof.
  intros rand B d s kw n fuel NP GS N. apply options_refused. intros d1. unfold read_options.
  destruct (h0_of s kw); [|cbn [rbind]; eauto]. cbn [rbind]. destruct (number _); [|cbn [rbind]; eauto]. cbn [rbind].
  assert (PP : points_of (opt "points" ANone kw) = Ok None) by (unfold is_given in NP; unfold opt; destruct (given "points" kw) as [[]|]; try discriminate; reflexivity).
  rewrite PP. cbn [rbind]. destruct (fixed_of _ _ _ _); [|cbn [rbind]; eauto]. cbn [rbind]. unfold opt at 1. rewrite GS. cbn [seed_check].
  assert (SE : exists e, seed_ok n = Err e).
  { destruct n as [z|r]; cbn [seed_ok]; [|eauto]. destruct ((0 <=? z)%Z && (z <? 2 ^ 32)%Z) eqn:Q; [|eauto]. exfalso. apply N. apply andb_true_iff in Q.
    exists z. split; [reflexivity|]. split; [apply Z.leb_le, Q|apply Z.ltb_lt, Q]. }
  destruct SE as (e & ->). cbn [rbind]. eauto.
Qed.
Print Assumptions C107_seed.
Lemma given_skip k k' v kw : given k ((k', v) :: kw) = if String.eqb k k' then Some v else given k kw.
Proof. reflexivity. Qed.
Ltac names_known := let k := fresh in let IN := fresh in intros k IN; cbn in IN; repeat (destruct IN as [<-|IN]; [cbn; tauto|]); destruct IN.
Definition five_box : string * arg := ("bbox"%string, ATuple (map PFloat [0;1;0;1;0;1])).
Definition five_kw (points : arg) (more : call_kw) : call_kw :=
  (five_box :: ("points", points) :: more ++ [("max_iter", ANum (PInt 1)); ("geps_mult", ANum (PFloat 0)); ("delta_t", ANum (PFloat (3 / 10)));
     ("verbose", ANum (PInt 1)); ("perform_checks", ABool false); ("pfix", ANone); ("mesh_improvement", ABool true); ("r0m_is_h0", ABool false)])%string.
Lemma five_call : exists p t, (exists r, In r t) /\ forall rand more, (forall k, In k (map fst more) -> In k ["axis"; "gamma"; "preserve"; "seed"; "h0"; "domain"]%string) ->
  call_generate_mesh rand five_backend (FunV deep_then_shallow) (SizeNumV (PFloat 1)) (five_kw (APoints five) more) 1 = Some (Ok (p, t), 1%nat).
Proof.
  destruct C69_unused_vertices_run as (p & t & _ & E & R & _). exists p, t. split; [exact R|]. intros rand more M. rewrite <- E.
  rewrite (C107_ignored_keywords _ _ _ _ _ (five_box :: all_options 1 1 0 false None (Some five) (3 / 10) 0 1 true false)).
  - unfold five_box. rewrite (C107_full_call _ _ _ (DFunction deep_then_shallow [0;1;0;1;0;1]) _ (SScalar 1)); [|lia|lia|discriminate|left; split; reflexivity|left; split; reflexivity].
    cbn [with_rand]. unfold generate_mesh, five_opts, prepare. reflexivity.
  - intros k IN. apply in_map_iff in IN. destruct IN as (kv & <- & IN). unfold five_kw in IN. destruct IN as [<-|[<-|IN]]; [cbn; tauto|cbn; tauto|].
    apply in_app_iff in IN. destruct IN as [IN|IN]; apply (in_map fst) in IN; [|cbn in IN; repeat (destruct IN as [<-|IN]; [cbn; tauto|]); destruct IN].
    apply M in IN. cbn in IN. repeat (destruct IN as [<-|IN]; [cbn; tauto|]). destruct IN.
  - names_known.
  - intros k N. unfold five_kw, five_box. cbn [given].
    destruct (String.eqb_spec k "bbox") as [->|NB]; [reflexivity|]. destruct (String.eqb_spec k "points") as [->|NP]; [reflexivity|].
    assert (GM : given k (more ++ [("max_iter", ANum (PInt 1)); ("geps_mult", ANum (PFloat 0)); ("delta_t", ANum (PFloat (3 / 10)));
     ("verbose", ANum (PInt 1)); ("perform_checks", ABool false); ("pfix", ANone); ("mesh_improvement", ABool true); ("r0m_is_h0", ABool false)]%string) =
     given k [("max_iter", ANum (PInt 1)); ("geps_mult", ANum (PFloat 0)); ("delta_t", ANum (PFloat (3 / 10)));
     ("verbose", ANum (PInt 1)); ("perform_checks", ABool false); ("pfix", ANone); ("mesh_improvement", ABool true); ("r0m_is_h0", ABool false)]%string).
    { assert (NM : ~ In k (map fst more)).
      { intros X. apply M in X. apply N. cbn in X. cbn. tauto. }
      clear - NM. induction more as [|[k' v'] more IH]; [reflexivity|]. cbn [app given]. cbn in NM. destruct (String.eqb_spec k k') as [->|_]; [destruct NM; left; reflexivity|].
      apply IH. intros X. apply NM. right. exact X. }
    rewrite GM. unfold all_options. rewrite !given_skip. cbn [given].
    assert (NS : k <> "seed"%string /\ k <> "h0"%string) by (split; intros ->; apply N; cbn; tauto).
    repeat match goal with |- context [String.eqb k ?x] => destruct (String.eqb_spec k x) as [->|]; [try reflexivity; try (destruct NS; contradiction); cbn [String.eqb Ascii.eqb Bool.eqb]; reflexivity|] end. reflexivity.
Qed.
Theorem C107_seed_float_refuted : exists rand B d s kw kw', given "seed" kw = Some (ANum (PFloat 1)) /\ kw' = filter (fun kv => negb (String.eqb (fst kv) "seed")) kw /\
  (forall fuel, refused (call_generate_mesh rand B d s (("points"%string, ANone) :: kw) fuel)) /\
  exists p t, (exists r, In r t) /\ call_generate_mesh rand B d s (("points"%string, APoints five) :: kw) 1 = Some (Ok (p, t), 1%nat) /\
              call_generate_mesh rand B d s (("points"%string, APoints five) :: kw') 1 = Some (Ok (p, t), 1%nat).
Proof.
  exists (fun _ n => repeat 0 n), five_backend, (FunV deep_then_shallow), (SizeNumV (PFloat 1)).
  set (rest := [("max_iter", ANum (PInt 1)); ("geps_mult", ANum (PFloat 0)); ("delta_t", ANum (PFloat (3 / 10)));
     ("verbose", ANum (PInt 1)); ("perform_checks", ABool false); ("pfix", ANone); ("mesh_improvement", ABool true); ("r0m_is_h0", ABool false)]%string).
  exists (five_box :: ("seed"%string, ANum (PFloat 1)) :: rest), (five_box :: rest). split; [reflexivity|]. split; [reflexivity|]. split.
  - intros fuel. eapply C107_seed; [reflexivity|reflexivity|]. intros (z & E & _). discriminate.
  - destruct five_call as (p & t & R & C). exists p, t. split; [exact R|].
    assert (ND : forall l, l = five_kw (APoints five) [("seed"%string, ANum (PFloat 1))] \/ l = five_kw (APoints five) [] -> NoDup (map fst l) /\ known l).
    { intros l [-> | ->]; (split; [cbn; repeat (constructor; [cbn; intuition discriminate|]); constructor|names_known]). }
    split.
    + rewrite <- (C (fun _ n => repeat 0 n) [("seed"%string, ANum (PFloat 1))]); [|intros k [<- | []]; cbn; tauto]. symmetry.
      apply C107_order; [apply ND; left; reflexivity|apply ND; left; reflexivity|]. apply perm_swap.
    + rewrite <- (C (fun _ n => repeat 0 n) []); [|intros k []]. symmetry.
      apply C107_order; [apply ND; right; reflexivity|apply ND; right; reflexivity|]. apply perm_swap.
Qed.
Print Assumptions C107_seed_float_refuted.
(** An empty list of fixed points is refused (ValueError), although None is not. *)
Theorem C107_empty_pfix : forall rand B d s kw fuel, is_given "points" kw = false -> given "pfix" kw = Some (APoints []) ->
  refused (call_generate_mesh rand B d s kw fuel).
Proof.
  intros rand B d s kw fuel NP GS. apply options_refused. intros d1. unfold read_options.
  destruct (h0_of s kw); [|cbn [rbind]; eauto]. cbn [rbind]. destruct (number (opt "geps_mult" _ kw)); [|cbn [rbind]; eauto]. cbn [rbind].
  assert (PP : points_of (opt "points" ANone kw) = Ok None) by (unfold is_given in NP; unfold opt; destruct (given "points" kw) as [[]|]; try discriminate; reflexivity).
  rewrite PP. cbn [rbind]. unfold fixed_of, opt at 1. rewrite GS. cbn [points_of rbind]. eauto.
Qed.
Print Assumptions C107_empty_pfix.
(** Values that are refused whatever the rest of the call. *)
Theorem C107_refused_values : forall rand B d s kw fuel,
  (exists k, In k (map fst kw) /\ ~ In k mesh_option_names) \/ (exists x, given "verbose" kw = Some (ANum x) /\ nval x <> 0 /\ nval x < 1) \/
  (exists k a, In k ["max_iter"; "delta_t"; "geps_mult"]%string /\ given k kw = Some a /\ match a with ANum _ | ABool _ => False | _ => True end) ->
  refused (call_generate_mesh rand B d s kw fuel).
Proof.
  intros rand B d s kw fuel [(k & IN & N) | [(x & G & N0 & N1) | (k & a & IN & G & A)]].
  - unfold call_generate_mesh, refused, check_call. destruct (parse_kwargs (plain kw)) as [[]|e] eqn:Q; [|cbn [rbind]; eauto]. exfalso. apply N.
    rewrite <- plain_names in IN. exact (proj1 (check_keys_ok mesh_keys (plain kw)) Q k IN).
  - unfold call_generate_mesh, refused, check_call. destruct (parse_kwargs (plain kw)) as [[]|e]; [|cbn [rbind]; eauto]. cbn [rbind]. unfold get_num. rewrite lookup_plain, G. cbn [option_map pyval_of rbind].
    unfold select_verbosity. rewrite (proj2 (Reqb_false _ _)) by exact N0. rewrite (proj2 (Reqb_false _ _)) by lra. unfold Rgtb. rewrite (proj2 (Rltb_false _ _)) by lra. cbn [rbind]. eauto.
  - apply options_refused. intros d1. unfold read_options. assert (NA : exists e, number a = Err e) by (destruct a; try destruct A; cbn [number]; eauto). destruct NA as (e & NA).
    destruct (h0_of s kw); [|cbn [rbind]; eauto]. cbn [rbind]. cbn in IN. destruct IN as [<- | [<- | [<- | []]]].
    + destruct (number (opt "geps_mult" _ kw)); [|cbn [rbind]; eauto]. cbn [rbind]. destruct (points_of _) as [pp|]; [|cbn [rbind]; eauto]. cbn [rbind]. destruct (fixed_of _ _ _ _); [|cbn [rbind]; eauto]. cbn [rbind].
      destruct (match pp with None => _ | Some _ => _ end); [|cbn [rbind]; eauto]. cbn [rbind]. unfold opt at 1. rewrite G, NA. cbn [rbind]. eauto.
    + destruct (number (opt "geps_mult" _ kw)); [|cbn [rbind]; eauto]. cbn [rbind]. destruct (points_of _) as [pp|]; [|cbn [rbind]; eauto]. cbn [rbind]. destruct (fixed_of _ _ _ _); [|cbn [rbind]; eauto]. cbn [rbind].
      destruct (match pp with None => _ | Some _ => _ end); [|cbn [rbind]; eauto]. cbn [rbind]. destruct (number (opt "max_iter" _ kw)); [|cbn [rbind]; eauto]. cbn [rbind]. unfold opt at 1. rewrite G, NA. cbn [rbind]. eauto.
    + unfold opt at 1. rewrite G, NA. cbn [rbind]. eauto.
Qed.
Print Assumptions C107_refused_values.
(** bbox given as a list although the size function has the very same box: the domain function is dropped and the box is meshed. *)
Theorem C107_bbox_list : forall rand B f x1 x2 y1 y2 h g kw fuel, let bb := map PFloat [x1; x2; y1; y2] in
  known kw -> x1 <= x2 -> y1 <= y2 ->
  call_generate_mesh rand B (FunV f) (SizeFunctionV bb h g) (("bbox"%string, AList bb) :: kw) fuel =
  call_generate_mesh rand B (FunV (d_eval (Rectangle x1 x2 y1 y2 no_manip))) (SizeFunctionV bb h g) (("bbox"%string, ATuple bb) :: kw) fuel.
Proof.
  intros rand B f x1 x2 y1 y2 h g kw fuel bb K X Y. set (k1 := ("bbox"%string, AList bb) :: kw). set (k2 := ("bbox"%string, ATuple bb) :: kw). unfold call_generate_mesh.
  assert (IN : In "bbox"%string mesh_option_names) by (cbn; tauto).
  rewrite (check_same k1 k2) by (try (apply known_cons; assumption); unfold k1, k2; rewrite !given_other by differ; reflexivity).
  destruct (check_call k2) as [[]|e]; [|reflexivity]. cbn [rbind].
  assert (FB : full_bbox (DFunction f (map nval bb)) (SObject (map nval bb) (nval h) g) = [x1; x2; y1; y2]).
  { unfold bb. cbn [map nval full_bbox size_bbox dom_bbox minmax_box negb]. unfold Rmin, Rmax. repeat destruct (Rle_dec _ _); try lra; reflexivity. }
  assert (R1 : read_domain box_fd (FunV f) (SizeFunctionV bb h g) k1 = Ok (DFunction (d_eval (Rectangle x1 x2 y1 y2 no_manip)) (map nval bb), SObject (map nval bb) (nval h) g)).
  { unfold read_domain. cbn [dom_kind unpack_domain]. rewrite lookup_plain. unfold k1. cbn [given String.eqb Ascii.eqb Bool.eqb option_map pyval_of]. unfold bb at 1. rewrite floats_ok. cbn [rbind fst snd size_kind unpack_sizing].
    unfold bb at 1. rewrite floats_ok. cbn [rbind fst snd negb]. unfold used_domain. cbn [dom_of size_of size_bbox]. fold bb. rewrite FB. cbn [box_fd replace_fd rbind]. reflexivity. }
  assert (R2 : read_domain box_fd (FunV (d_eval (Rectangle x1 x2 y1 y2 no_manip))) (SizeFunctionV bb h g) k2 = Ok (DFunction (d_eval (Rectangle x1 x2 y1 y2 no_manip)) (map nval bb), SObject (map nval bb) (nval h) g)).
  { unfold read_domain. cbn [dom_kind unpack_domain]. rewrite lookup_plain. unfold k2. cbn [given String.eqb Ascii.eqb Bool.eqb option_map pyval_of]. unfold bb at 1. rewrite floats_ok. cbn [rbind fst snd size_kind unpack_sizing].
    unfold bb at 1. rewrite floats_ok. cbn [rbind fst snd negb]. unfold used_domain. cbn [dom_of size_of size_bbox]. fold bb. reflexivity. }
  rewrite R1, R2. cbn [rbind fst].
  assert (RO : forall d, read_options d (SizeFunctionV bb h g) k1 = read_options d (SizeFunctionV bb h g) k2).
  { intros d. unfold read_options. rewrite (h0_same _ k1 k2) by discriminate. unfold k1, k2. rewrite !opt_other by differ. reflexivity. }
  rewrite RO. destruct (read_options _ _ k2) as [o|e]; [|reflexivity]. cbn [rbind].
  assert (UA : forall l, unpack_all l k1 = unpack_all l k2).
  { intros l. induction l as [|x l IH]; [reflexivity|]. cbn [unpack_all]. rewrite IH. destruct x as [tp b c ff|ff|]; try reflexivity. }
  assert (SB : subdomains_of k1 = subdomains_of k2).
  { unfold subdomains_of. replace (opt "subdomains" ANone k1) with (opt "subdomains" ANone k2) by (unfold k1, k2; rewrite !opt_other by differ; reflexivity).
    destruct (domains_of _) as [[l|]|]; [|reflexivity|reflexivity]. cbn [rbind]. rewrite UA. reflexivity. }
  rewrite SB. replace (opt "seed" (ANum (PInt 0)) k1) with (opt "seed" (ANum (PInt 0)) k2) by (unfold k1, k2; rewrite !opt_other by differ; reflexivity). reflexivity.
Qed.
Print Assumptions C107_bbox_list.

(** Any value passed for a flag counts as Python's bool of it: a number is false exactly when it is 0, None and the empty text are false. *)
Definition counts_as (a : arg) (b : bool) : Prop :=
  match a with
  | ANone => b = false | ABool c => b = c | ANum n => b = true <-> nval n <> 0 | AText t => b = true <-> t <> EmptyString
  | ATuple l | AList l => b = true <-> l <> [] | APoints l => b = true <-> l <> [] | ADomains l => b = true <-> l <> []
  end.
Lemma nonempty A (l : list A) b : (b = true <-> l <> []) -> negb (length l =? 0)%nat = b.
Proof. destruct l; cbn; intros H; destruct b; try reflexivity; [exfalso; apply (proj1 H); reflexivity|symmetry; apply H; discriminate]. Qed.
Lemma truth_counts a b : counts_as a b -> truth a = b.
Proof.
  destruct a as [|c|n|l|l|l|l|t]; cbn [counts_as truth]; intros H; auto using nonempty.
  - unfold Reqb. destruct (Req_EM_T (nval n) 0) as [E|E]; cbn; destruct b; try reflexivity; [exfalso; apply (proj1 H); auto|symmetry; apply H; exact E].
  - destruct (String.eqb_spec t "") as [->|E]; cbn; destruct b; try reflexivity; [exfalso; apply (proj1 H); reflexivity|symmetry; apply H; exact E].
Qed.
Theorem C107_flags : forall rand B d s kw k a b fuel, known kw -> In k ["perform_checks"; "mesh_improvement"; "r0m_is_h0"]%string -> counts_as a b ->
  call_generate_mesh rand B d s ((k, a) :: kw) fuel = call_generate_mesh rand B d s ((k, ABool b) :: kw) fuel.
Proof.
  intros rand B d s kw k a b fuel K IN C. apply truth_counts in C.
  assert (KN : In k mesh_option_names) by (cbn in IN |- *; tauto).
  assert (G : forall k', ~ In k' ["perform_checks"; "mesh_improvement"; "r0m_is_h0"]%string -> given k' ((k, a) :: kw) = given k' ((k, ABool b) :: kw)).
  { intros k' N. rewrite !given_other; [reflexivity| |]; intros ->; contradiction. }
  assert (NK : forall k', In k' ["verbose"; "bbox"; "h0"; "geps_mult"; "points"; "pfix"; "seed"; "max_iter"; "delta_t"; "subdomains"]%string -> given k' ((k, a) :: kw) = given k' ((k, ABool b) :: kw)).
  { intros k' I'. apply G. intros I''. cbn in I', I''. intuition (subst; discriminate). }
  assert (T : forall k' v, truth (opt k' v ((k, a) :: kw)) = truth (opt k' v ((k, ABool b) :: kw))).
  { intros k' v. unfold opt. cbn [given]. destruct (String.eqb k' k); [exact C|reflexivity]. }
  unfold call_generate_mesh. rewrite (check_same ((k, a) :: kw) ((k, ABool b) :: kw)) by (try (apply known_cons; assumption); apply NK; cbn; tauto).
  destruct (check_call _) as [[]|e]; [|reflexivity]. cbn [rbind].
  rewrite (read_domain_same box_fd d s ((k, a) :: kw) ((k, ABool b) :: kw)) by (intros _; apply NK; cbn; tauto).
  destruct (read_domain box_fd d s ((k, ABool b) :: kw)) as [[d1 s1]|e]; [|reflexivity]. cbn [rbind fst].
  assert (RO : read_options d1 s ((k, a) :: kw) = read_options d1 s ((k, ABool b) :: kw)).
  { unfold read_options. rewrite (h0_same s ((k, a) :: kw) ((k, ABool b) :: kw)) by (intros _; apply NK; cbn; tauto). rewrite !T.
    rewrite !(fun k' v I' => opt_same k' v ((k, a) :: kw) ((k, ABool b) :: kw) (NK k' I')) by (cbn; tauto). reflexivity. }
  rewrite RO. destruct (read_options d1 s ((k, ABool b) :: kw)) as [o|e]; [|reflexivity]. cbn [rbind].
  rewrite (opt_same "seed" _ ((k, a) :: kw) ((k, ABool b) :: kw)) by (apply NK; cbn; tauto).
  rewrite (subdomains_same ((k, a) :: kw) ((k, ABool b) :: kw)) by (intros; apply NK; cbn; tauto). reflexivity.
Qed.
Print Assumptions C107_flags.
Theorem C107_sliver_flags : forall B rank points d s kw k a b fuel, known kw -> In k ["perform_checks"; "preserve"]%string -> counts_as a b ->
  call_sliver_removal B rank points d s ((k, a) :: kw) fuel = call_sliver_removal B rank points d s ((k, ABool b) :: kw) fuel.
Proof.
  intros B rank points d s kw k a b fuel K IN C. apply truth_counts in C.
  assert (KN : In k mesh_option_names) by (cbn in IN |- *; tauto).
  assert (NK : forall k', In k' ["verbose"; "bbox"; "h0"; "geps_mult"; "max_iter"; "min_dh_angle_bound"; "max_dh_angle_bound"; "gamma"]%string -> given k' ((k, a) :: kw) = given k' ((k, ABool b) :: kw)).
  { intros k' I'. rewrite !given_other; [reflexivity| |]; intros ->; cbn in I', IN; intuition (subst; discriminate). }
  assert (T : forall k' v, truth (opt k' v ((k, a) :: kw)) = truth (opt k' v ((k, ABool b) :: kw))).
  { intros k' v. unfold opt. cbn [given]. destruct (String.eqb k' k); [exact C|reflexivity]. }
  unfold call_sliver_removal. destruct (0 <? rank)%nat; [reflexivity|].
  rewrite (check_same ((k, a) :: kw) ((k, ABool b) :: kw)) by (try (apply known_cons; assumption); apply NK; cbn; tauto).
  destruct (check_call _) as [[]|e]; [|reflexivity]. cbn [rbind]. destruct (existsb _ points); [reflexivity|].
  rewrite (read_domain_same cube_fd d s ((k, a) :: kw) ((k, ABool b) :: kw)) by (intros _; apply NK; cbn; tauto).
  destruct (read_domain cube_fd d s ((k, ABool b) :: kw)) as [[d1 s1]|e]; [|reflexivity]. cbn [rbind fst].
  assert (RO : read_sliver_options s ((k, a) :: kw) = read_sliver_options s ((k, ABool b) :: kw)).
  { unfold read_sliver_options. rewrite (h0_same s ((k, a) :: kw) ((k, ABool b) :: kw)) by (intros _; apply NK; cbn; tauto). rewrite !T.
    rewrite !(fun k' v I' => opt_same k' v ((k, a) :: kw) ((k, ABool b) :: kw) (NK k' I')) by (cbn; tauto). reflexivity. }
  rewrite RO. reflexivity.
Qed.
Print Assumptions C107_sliver_flags.
(** The seed decides nothing but the random numbers: any admissible one (an integer from 0 to 2^32 - 1, True, False, None, a non-empty tuple
    or list of such integers) gives what seed 0 gives with its random numbers in place of those of 0. *)
Definition small_int (n : num) : Prop := exists z, n = PInt z /\ (0 <= z < 2 ^ 32)%Z.
Definition good_seed (a : arg) : Prop :=
  match a with ANone | ABool _ => True | ANum n => small_int n | ATuple l | AList l => l <> [] /\ Forall small_int l | _ => False end.
Lemma seed_small n : small_int n -> seed_ok n = Ok tt.
Proof. intros (z & -> & A & B). cbn [seed_ok]. rewrite (proj2 (Z.leb_le _ _) A), (proj2 (Z.ltb_lt _ _) B). reflexivity. Qed.
Lemma seed_good a : good_seed a -> seed_check a = Ok tt.
Proof.
  destruct a as [|c|n|l|l|l|l|t]; cbn [good_seed seed_check]; try tauto; [apply seed_small| |].
  all: intros (N & F); destruct l as [|n l]; [contradiction|]; clear N; induction F as [|m l' M F IH]; [reflexivity|]; cbn [fold_right]; rewrite seed_small by exact M; cbn [rbind]; exact IH.
Qed.
Theorem C107_seed_values : forall rand B d s kw a fuel, known kw -> good_seed a ->
  call_generate_mesh rand B d s (("seed"%string, a) :: kw) fuel = call_generate_mesh (fun _ => rand a) B d s (("seed"%string, ANum (PInt 0)) :: kw) fuel.
Proof.
  intros rand B d s kw a fuel K GA. set (k1 := ("seed"%string, a) :: kw). set (k2 := ("seed"%string, ANum (PInt 0)) :: kw).
  assert (KN : In "seed"%string mesh_option_names) by (cbn; tauto).
  assert (G : forall k, k <> "seed"%string -> given k k1 = given k k2) by (intros k N; unfold k1, k2; rewrite !given_other by exact N; reflexivity).
  unfold call_generate_mesh. rewrite (check_same k1 k2) by (try (apply known_cons; assumption); apply G; differ).
  destruct (check_call k2) as [[]|e]; [|reflexivity]. cbn [rbind].
  rewrite (read_domain_same box_fd d s k1 k2) by (intros _; apply G; differ). destruct (read_domain box_fd d s k2) as [[d1 s1]|e]; [|reflexivity]. cbn [rbind fst].
  assert (O1 : opt "seed" (ANum (PInt 0)) k1 = a) by reflexivity. assert (O2 : opt "seed" (ANum (PInt 0)) k2 = ANum (PInt 0)) by reflexivity.
  assert (S0 : seed_check (ANum (PInt 0)) = Ok tt) by reflexivity.
  assert (RO : read_options d1 s k1 = read_options d1 s k2).
  { unfold read_options. rewrite O1, O2, S0, (seed_good a GA), (h0_same s k1 k2) by (intros _; apply G; differ).
    rewrite !(fun k v N => opt_same k v k1 k2 (G k N)) by differ. reflexivity. }
  rewrite RO. destruct (read_options d1 s k2) as [o|e]; [|reflexivity]. cbn [rbind]. rewrite O1.
  rewrite (subdomains_same k1 k2) by (intros; apply G; differ). reflexivity.
Qed.
Print Assumptions C107_seed_values.
Example C107_values_case : counts_as (ANum (PFloat 0)) false /\ counts_as (ANum (PInt 2)) true /\ counts_as (AText "no") true /\ counts_as ANone false /\
  good_seed ANone /\ good_seed (ABool true) /\ good_seed (AList [PInt 1; PInt 4294967295]) /\ ~ good_seed (ANum (PInt 4294967296)) /\ ~ good_seed (ATuple []).
Proof.
  cbn. split; [split; [discriminate|intros H; exfalso; apply H; reflexivity]|]. split; [split; [intros _; lra|reflexivity]|]. split; [split; [discriminate|reflexivity]|].
  split; [reflexivity|]. split; [exact Logic.I|]. split; [exact Logic.I|]. split; [split; [discriminate|]|].
  - apply Forall_cons; [exists 1%Z; split; [reflexivity|lia]|]. apply Forall_cons; [exists 4294967295%Z; split; [reflexivity|lia]|apply Forall_nil].
  - split; [|intros (N & _); apply N; reflexivity]. intros (z & E & _ & L). injection E as <-. cbn in L. lia.
Qed.

(** calls that return a mesh and are equal although axis, gamma, preserve, h0 and seed differ; the keywords that are read do matter *)
Example C107_case : exists p t, (exists r, In r t) /\ (forall rand more, (forall k, In k (map fst more) -> In k ["axis"; "gamma"; "preserve"; "seed"; "h0"; "domain"]%string) ->
  call_generate_mesh rand five_backend (FunV deep_then_shallow) (SizeNumV (PFloat 1)) (five_kw (APoints five) more) 1 = Some (Ok (p, t), 1%nat)) /\
  (forall rand, refused (call_generate_mesh rand five_backend (FunV deep_then_shallow) (SizeNumV (PFloat 1)) (five_kw (APoints five) [("max_iter", ATuple [])]%string) 1)) /\
  known (five_kw (APoints five) [("axis", AText "x"); ("gamma", ANone)]%string) /\ NoDup (map fst (five_kw (APoints five) [("axis", AText "x"); ("gamma", ANone)]%string)).
Proof.
  destruct five_call as (p & t & R & C). exists p, t. split; [exact R|]. split; [exact C|]. split; [|split].
  - intros rand. apply C107_refused_values. right. right. exists "max_iter"%string, (ATuple []). split; [cbn; tauto|]. split; [reflexivity|exact Logic.I].
  - names_known.
  - cbn. repeat (constructor; [cbn; intuition discriminate|]). constructor.
Qed.
