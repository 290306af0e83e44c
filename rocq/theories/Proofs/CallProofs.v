(** Which keywords the calls of Model/Calls.v look at. *)
From Coq Require Import String List ZArith Reals Bool Arith Lia Lra Permutation.
From Verif Require Import Model.Base Model.SDF Model.Mesh Model.Options Model.Generator Model.Calls Spec.OptionNames Spec.Keywords Proofs.ListAux Proofs.OptionsProofs.
Import ListNotations.
Local Open Scope R_scope.

Lemma lookup_plain k kw : lookup k (plain kw) = option_map pyval_of (given k kw).
Proof. induction kw as [|[k' v] kw IH]; [reflexivity|]. cbn [plain map lookup given fst snd]. destruct (String.eqb k k'); [reflexivity|exact IH]. Qed.
Lemma plain_names kw : map fst (plain kw) = map fst kw.
Proof. unfold plain. rewrite map_map. reflexivity. Qed.
Lemma parse_known kw : known kw -> parse_kwargs (plain kw) = Ok tt.
Proof. intros K. apply (proj2 (check_keys_ok mesh_keys (plain kw))). rewrite plain_names. exact K. Qed.
Lemma get_num_plain k d kw kw' : given k kw = given k kw' -> get_num k d (plain kw) = get_num k d (plain kw').
Proof. intros E. unfold get_num. rewrite !lookup_plain, E. reflexivity. Qed.
Lemma opt_same k v kw kw' : given k kw = given k kw' -> opt k v kw = opt k v kw'.
Proof. intros E. unfold opt. rewrite E. reflexivity. Qed.
Lemma check_same kw kw' : known kw -> known kw' -> given "verbose" kw = given "verbose" kw' -> check_call kw = check_call kw'.
Proof. intros K K' E. unfold check_call. rewrite (parse_known _ K), (parse_known _ K'). cbn [rbind]. rewrite (get_num_plain _ _ _ _ E). reflexivity. Qed.
Lemma unpack_same d kw kw' : (brings_box d = false -> given "bbox" kw = given "bbox" kw') -> unpack_domain (dom_kind d) (plain kw) = unpack_domain (dom_kind d) (plain kw').
Proof. intros E. destruct d as [t b c f|f|]; [reflexivity| |reflexivity]. cbn [dom_kind unpack_domain]. rewrite !lookup_plain, (E eq_refl). reflexivity. Qed.
Lemma read_domain_same bx d s kw kw' : (brings_box d = false -> given "bbox" kw = given "bbox" kw') -> read_domain bx d s kw = read_domain bx d s kw'.
Proof. intros E. unfold read_domain. rewrite (unpack_same _ _ _ E). reflexivity. Qed.
Lemma unpack_all_same l kw kw' : (forallb brings_box l = false -> given "bbox" kw = given "bbox" kw') -> unpack_all l kw = unpack_all l kw'.
Proof.
  induction l as [|d l IH]; intros E; [reflexivity|]. cbn [unpack_all]. cbn [forallb] in E.
  rewrite (unpack_same d kw kw'); [|intros Q; apply E; rewrite Q; reflexivity].
  rewrite IH; [reflexivity|]. intros Q. apply E. rewrite Q. apply andb_false_r.
Qed.
Lemma subdomains_same kw kw' : given "subdomains" kw = given "subdomains" kw' ->
  (subdomains_bring_boxes kw = false -> given "bbox" kw = given "bbox" kw') -> subdomains_of kw = subdomains_of kw'.
Proof.
  intros E X. unfold subdomains_of. rewrite <- (opt_same _ ANone _ _ E). unfold subdomains_bring_boxes in X. unfold opt.
  assert (N : forall A (l : list A), forallb brings_box (map (fun _ => NoDomV) l) = true) by (intros A l; induction l as [|a l IH]; [reflexivity|exact IH]).
  assert (N' : forall n, forallb brings_box (repeat NoDomV n) = true) by (intros n; induction n as [|n IH]; [reflexivity|exact IH]).
  destruct (given "subdomains" kw) as [[| b | n | l | l | l | l | s]|]; cbn [domains_of rbind]; try reflexivity;
    rewrite (unpack_all_same _ kw kw'); try reflexivity; try exact X; intros Q; rewrite ?N, ?N' in Q; discriminate.
Qed.
Lemma h0_same s kw kw' : (brings_h0 s = false -> given "h0" kw = given "h0" kw') -> h0_of s kw = h0_of s kw'.
Proof. intros E. destruct s as [b h f|f|h|]; try reflexivity. cbn [h0_of]. rewrite (E eq_refl). reflexivity. Qed.

(** what the loop does not look at *)
Definition with_improve (P : problem) (i : bool) : problem :=
  mkProblem (g_dim P) (g_fd P) (g_fh P) (g_h0 P) (g_deps P) (g_geps P) (g_delta_t P) (g_pfix P) (g_subs P) (g_max_iter P) (g_checks P) i.
Lemma finish_same B r r' P i p t : (i = g_improve P \/ g_subs P <> None \/ (g_dim P <> 2)%nat) ->
  finish (with_rand B r) P p t = finish (with_rand B r') (with_improve P i) p t.
Proof.
  intros D. unfold finish. cbn [with_improve g_dim g_subs g_improve g_checks g_fd g_deps g_h0].
  assert (T : forall a b, (a = b \/ (g_dim P <> 2)%nat) -> termination (with_rand B r) (g_dim P) a (g_checks P) p t = termination (with_rand B r') (g_dim P) b (g_checks P) p t).
  { intros a b [-> | N]; [reflexivity|]. unfold termination. destruct (Nat.eqb_spec (g_dim P) 2) as [Q|_]; [contradiction|]. reflexivity. }
  rewrite (T _ (match g_subs P with None => i | Some _ => false end)); [reflexivity|].
  destruct D as [D | [D | D]]; [left; destruct (g_subs P); congruence|left; destruct (g_subs P); congruence|right; exact D].
Qed.
Lemma loop_same B r r' P i fuel : (i = g_improve P \/ g_subs P <> None \/ (g_dim P <> 2)%nat) ->
  forall count p, mesh_loop (with_rand B r) P fuel count p = mesh_loop (with_rand B r') (with_improve P i) fuel count p.
Proof.
  intros D. induction fuel as [|k IH]; intros count p; [reflexivity|]. cbn [mesh_loop].
  change (b_tri (with_rand B r)) with (b_tri B). change (b_tri (with_rand B r')) with (b_tri B).
  destruct (b_tri B count p) as [p1 t0].
  cbn [with_improve g_dim g_fd g_geps g_fh g_h0 g_delta_t g_max_iter].
  change (ifix_of (with_improve P i)) with (ifix_of P). change (next_points (with_improve P i)) with (next_points P).
  rewrite (finish_same B r r' P i); [|exact D].
  destruct p1 as [|x p1]; [reflexivity|]. destruct (Reqb _ _); [reflexivity|]. destruct (Rltb _ _); [apply IH|reflexivity].
Qed.
Definition vary (o : gen_opts) (i m : bool) : gen_opts :=
  mkOpts (o_max_iter o) (o_perform_checks o) (o_pfix o) (o_points o) (o_delta_t o) (o_geps_mult o) (o_subdomains o) i m (o_h0 o).
Lemma prepare_same B r r' d s o i m : (o_points o <> None \/ (r = r' /\ m = o_r0m_is_h0 o)) ->
  prepare (with_rand B r') d s (vary o i m) = match prepare (with_rand B r) d s o with Ok (P, p) => Ok (with_improve P i, p) | Err e => Err e end.
Proof.
  intros D. unfold prepare.
  assert (ST : forall dim bb fd h g pf, start_points (with_rand B r') s dim bb fd h g pf (vary o i m) = start_points (with_rand B r) s dim bb fd h g pf o).
  { intros. unfold start_points. cbn [vary o_points]. destruct (o_points o) as [l|] eqn:Q; [reflexivity|]. destruct D as [D | [<- ->]]; [congruence|].
    unfold initial_points. change (r0m_of (vary o i (o_r0m_is_h0 o))) with (r0m_of o). reflexivity. }
  destruct (meshed_fd d s) as [fd|]; [|reflexivity]. change (the_h0 s (vary o i m)) with (the_h0 s o). destruct (the_h0 s o) as [h0|]; [|reflexivity].
  destruct (Rltb h0 0); [reflexivity|]. destruct (negb _); [reflexivity|]. rewrite ST. cbn [vary o_geps_mult].
  change (fixed_points d s (Nat.div2 (length (full_bbox d s))) fd (deps_of h0) (vary o i m)) with (fixed_points d s (Nat.div2 (length (full_bbox d s))) fd (deps_of h0) o).
  destruct (start_points _ s _ _ fd h0 _ _ o) as [p|e]; [|reflexivity]. cbn [rbind vary o_max_iter]. destruct (Rltb (o_max_iter o) 0); [reflexivity|].
  destruct p as [|x p]; reflexivity.
Qed.
Lemma prepare_inv B d s o P p : prepare B d s o = Ok (P, p) -> g_subs P = o_subdomains o /\ g_improve P = o_mesh_improvement o /\ g_dim P = Nat.div2 (length (full_bbox d s)).
Proof.
  unfold prepare. destruct (meshed_fd d s) as [fd|]; [|discriminate]. destruct (the_h0 s o) as [h0|]; [|discriminate].
  destruct (Rltb h0 0); [discriminate|]. destruct (negb _); [discriminate|]. destruct (start_points _ s _ _ fd h0 _ _ o) as [q|e]; [|discriminate].
  cbn [rbind]. destruct (Rltb _ 0); [discriminate|]. destruct q as [|x q]; [discriminate|]. intros H. injection H as <- <-. cbn. auto.
Qed.
Lemma mesh_same B r r' d s o i m fuel : (o_points o <> None \/ (r = r' /\ m = o_r0m_is_h0 o)) ->
  (i = o_mesh_improvement o \/ o_subdomains o <> None \/ (Nat.div2 (length (full_bbox d s)) <> 2)%nat) ->
  generate_mesh (with_rand B r) d s o fuel = generate_mesh (with_rand B r') d s (vary o i m) fuel.
Proof.
  intros D1 D2. unfold generate_mesh. rewrite (prepare_same B r r' d s o i m D1). destruct (prepare (with_rand B r) d s o) as [[P p]|e] eqn:Q; [|reflexivity].
  destruct (prepare_inv _ _ _ _ _ _ Q) as (S1 & S2 & S3). apply loop_same. rewrite S1, S2, S3. exact D2.
Qed.

(** everything but the seed and the flags that may be ignored *)
Lemma read_options_same d s kw kw' :
  (forall k, In k ["geps_mult"; "points"; "pfix"; "max_iter"; "delta_t"; "perform_checks"]%string -> given k kw = given k kw') ->
  (brings_h0 s = false -> given "h0" kw = given "h0" kw') -> (is_given "points" kw = false -> given "seed" kw = given "seed" kw') ->
  read_options d s kw' = rbind (read_options d s kw) (fun o => Ok (vary o (truth (opt "mesh_improvement" (ABool true) kw')) (truth (opt "r0m_is_h0" (ABool false) kw')))).
Proof.
  intros E H SD. unfold read_options. rewrite <- (h0_same s kw kw' H).
  rewrite <- (opt_same "geps_mult" (ANum (PFloat (1 / 10))) kw kw'), <- (opt_same "points" ANone kw kw'), <- (opt_same "pfix" ANone kw kw'), <- (opt_same "max_iter" (ANum (PInt 50)) kw kw'),
    <- (opt_same "delta_t" (ANum (PFloat (3 / 10))) kw kw'), <- (opt_same "perform_checks" (ABool false) kw kw') by (apply E; cbn; tauto).
  destruct (h0_of s kw) as [h0|e]; [|reflexivity]. cbn [rbind]. destruct (number (opt "geps_mult" _ kw)) as [g|e]; [|reflexivity]. cbn [rbind].
  destruct (points_of (opt "points" ANone kw)) as [pp|e] eqn:PP; [|reflexivity]. cbn [rbind].
  destruct (fixed_of d (size_of s) pp (opt "pfix" ANone kw)) as [pf|e]; [|reflexivity]. cbn [rbind].
  assert (SS : match pp with None => seed_check (opt "seed" (ANum (PInt 0)) kw') | Some _ => Ok tt end = match pp with None => seed_check (opt "seed" (ANum (PInt 0)) kw) | Some _ => Ok tt end).
  { destruct pp as [l|]; [reflexivity|]. rewrite (opt_same "seed" _ kw kw'); [reflexivity|]. apply SD. unfold is_given. unfold opt in PP.
    destruct (given "points" kw) as [[| | | | | | |]|]; try discriminate PP; reflexivity. }
  rewrite SS. clear SS. set (sd := match pp with None => seed_check _ | Some _ => Ok tt end). destruct sd as [u|e]; [|reflexivity]. cbn [rbind].
  destruct (number (opt "max_iter" _ kw)) as [mi|e]; [|reflexivity]. cbn [rbind]. destruct (number (opt "delta_t" _ kw)) as [dt|e]; reflexivity.
Qed.
Lemma read_options_inv d s kw o : read_options d s kw = Ok o ->
  (is_given "points" kw = true -> o_points o <> None) /\ o_r0m_is_h0 o = truth (opt "r0m_is_h0" (ABool false) kw) /\ o_mesh_improvement o = truth (opt "mesh_improvement" (ABool true) kw).
Proof.
  unfold read_options. destruct (h0_of s kw) as [h0|e]; [|discriminate]. cbn [rbind]. destruct (number (opt "geps_mult" _ kw)) as [g|e]; [|discriminate]. cbn [rbind].
  destruct (points_of (opt "points" ANone kw)) as [pp|e] eqn:PP; [|discriminate]. cbn [rbind].
  destruct (fixed_of d (size_of s) pp (opt "pfix" ANone kw)) as [pf|e]; [|discriminate]. cbn [rbind].
  destruct (match pp with None => seed_check _ | Some _ => Ok tt end) as [u|e]; [|discriminate]. cbn [rbind].
  destruct (number (opt "max_iter" _ kw)) as [mi|e]; [|discriminate]. cbn [rbind]. destruct (number (opt "delta_t" _ kw)) as [dt|e]; [|discriminate].
  intros Q. injection Q as <-. cbn [o_points o_r0m_is_h0 o_mesh_improvement]. split; [|split; reflexivity].
  unfold is_given, opt in *. destruct (given "points" kw) as [[| | | | | | |]|]; try discriminate; intros _; cbn in PP; injection PP as <-; discriminate.
Qed.
Lemma vary_subs o i m subs : with_subs (vary o i m) subs = vary (with_subs o subs) i m.
Proof. reflexivity. Qed.

Lemma call_same rand B d s kw kw' fuel : known kw -> known kw' -> same_except (mesh_ignored d s kw) kw kw' ->
  call_generate_mesh rand B d s kw fuel = call_generate_mesh rand B d s kw' fuel.
Proof.
  intros K K' E. unfold mesh_ignored in E.
  set (L := mesh_unread ++ (if brings_h0 s then ["h0"%string] else []) ++ (if brings_box d && subdomains_bring_boxes kw then ["bbox"%string] else [])
            ++ (if is_given "points" kw then ["seed"; "r0m_is_h0"]%string else []) ++ (if is_given "subdomains" kw then ["mesh_improvement"%string] else [])) in *.
  assert (NI : forall k, In k L -> In k mesh_unread \/ (k = "h0"%string /\ brings_h0 s = true) \/ (k = "bbox"%string /\ brings_box d && subdomains_bring_boxes kw = true)
     \/ ((k = "seed" \/ k = "r0m_is_h0")%string /\ is_given "points" kw = true) \/ (k = "mesh_improvement"%string /\ is_given "subdomains" kw = true)).
  { intros k IN. unfold L in IN. rewrite !in_app_iff in IN.
    destruct IN as [IN|[IN|[IN|[IN|IN]]]]; [left; exact IN|right; left|right; right; left|do 3 right; left|do 4 right].
    - destruct (brings_h0 s); [|destruct IN]. cbn in IN. intuition congruence.
    - destruct (brings_box d && subdomains_bring_boxes kw); [|destruct IN]. cbn in IN. intuition congruence.
    - destruct (is_given "points" kw); [|destruct IN]. cbn in IN. intuition congruence.
    - destruct (is_given "subdomains" kw); [|destruct IN]. cbn in IN. intuition congruence. }
  assert (G : forall k, ~ In k mesh_unread -> k <> "h0"%string -> k <> "bbox"%string -> k <> "seed"%string -> k <> "r0m_is_h0"%string -> k <> "mesh_improvement"%string -> given k kw = given k kw').
  { intros k N1 N2 N3 N4 N5 N6. apply E. intros IN. destruct (NI k IN) as [Q|[[Q _]|[[Q _]|[[[Q|Q] _]|[Q _]]]]]; auto. }
  assert (U : forall k, In k mesh_unread -> k <> "h0"%string /\ k <> "bbox"%string /\ k <> "seed"%string /\ k <> "r0m_is_h0"%string /\ k <> "mesh_improvement"%string).
  { intros k IN. cbn in IN. repeat (destruct IN as [<- | IN]; [repeat split; discriminate|]). destruct IN. }
  assert (EH : brings_h0 s = false -> given "h0" kw = given "h0" kw').
  { intros Q. apply E. intros IN. destruct (NI _ IN) as [X|[[_ X]|[[X _]|[[[X|X] _]|[X _]]]]]; try discriminate X; [destruct (U _ X) as (X' & _); congruence|congruence]. }
  assert (EB : brings_box d && subdomains_bring_boxes kw = false -> given "bbox" kw = given "bbox" kw').
  { intros Q. apply E. intros IN. destruct (NI _ IN) as [X|[[X _]|[[_ X]|[[[X|X] _]|[X _]]]]]; try discriminate X; [destruct (U _ X) as (_ & X' & _); congruence|congruence]. }
  assert (ES : is_given "points" kw = false -> given "seed" kw = given "seed" kw').
  { intros Q. apply E. intros IN. destruct (NI _ IN) as [X|[[X _]|[[X _]|[[_ X]|[X _]]]]]; try discriminate X; [destruct (U _ X) as (_ & _ & X' & _); congruence|congruence]. }
  assert (ER : is_given "points" kw = false -> given "r0m_is_h0" kw = given "r0m_is_h0" kw').
  { intros Q. apply E. intros IN. destruct (NI _ IN) as [X|[[X _]|[[X _]|[[_ X]|[X _]]]]]; try discriminate X; [destruct (U _ X) as (_ & _ & _ & X' & _); congruence|congruence]. }
  assert (EM : is_given "subdomains" kw = false -> given "mesh_improvement" kw = given "mesh_improvement" kw').
  { intros Q. apply E. intros IN. destruct (NI _ IN) as [X|[[X _]|[[X _]|[[[X|X] _]|[_ X]]]]]; try discriminate X; [destruct (U _ X) as (_ & _ & _ & _ & X'); congruence|congruence]. }
  assert (GS : forall k, In k ["verbose"; "geps_mult"; "points"; "pfix"; "max_iter"; "delta_t"; "perform_checks"; "subdomains"]%string -> given k kw = given k kw').
  { intros k IN. apply G; cbn in IN; repeat (destruct IN as [<- | IN]; [try discriminate; cbn; intuition discriminate|]); destruct IN. }
  clear G NI U E L.
  unfold call_generate_mesh. rewrite <- (check_same kw kw' K K') by (apply GS; cbn; tauto).
  rewrite <- (read_domain_same box_fd d s kw kw') by (intros Q; apply EB; rewrite Q; reflexivity).
  destruct (check_call kw) as [u|e]; [|reflexivity]. cbn [rbind]. destruct (read_domain box_fd d s kw) as [[d1 s1]|e] eqn:RD; [|reflexivity]. cbn [rbind fst].
  rewrite (read_options_same d1 s kw kw') by (try assumption; intros k IN; apply GS; cbn in IN |- *; tauto).
  destruct (read_options d1 s kw) as [o|e] eqn:RO; [|reflexivity]. cbn [rbind].
  destruct (read_options_inv _ _ _ _ RO) as (O1 & O2 & O3).
  rewrite <- (subdomains_same kw kw') by (try (apply GS; cbn; tauto); intros Q; apply EB; rewrite Q; apply andb_false_r).
  set (i := truth (opt "mesh_improvement" (ABool true) kw')). set (m := truth (opt "r0m_is_h0" (ABool false) kw')).
  set (r := rand (opt "seed" (ANum (PInt 0)) kw)). set (r' := rand (opt "seed" (ANum (PInt 0)) kw')).
  assert (D1 : o_points o <> None \/ (r = r' /\ m = o_r0m_is_h0 o)).
  { destruct (is_given "points" kw) eqn:Q; [left; auto|right]. split; [unfold r, r'; rewrite (opt_same "seed" _ kw kw' (ES eq_refl)); reflexivity|].
    unfold m. rewrite O2, (opt_same "r0m_is_h0" _ kw kw' (ER eq_refl)). reflexivity. }
  destruct (subdomains_of kw) as [subs|e] eqn:SU.
  - rewrite vary_subs. apply mesh_same; [exact D1|]. cbn [with_subs o_mesh_improvement o_subdomains].
    destruct (is_given "subdomains" kw) eqn:Q.
    + right; left. unfold subdomains_of in SU. unfold is_given, opt in *. destruct (given "subdomains" kw) as [[| b | n | l | l | l | l | t]|]; try discriminate Q; cbn [domains_of rbind] in SU; try discriminate SU;
      destruct (unpack_all _ kw); cbn [rbind] in SU; try discriminate SU; injection SU as <-; discriminate.
    + left. unfold i. rewrite O3, (opt_same "mesh_improvement" _ kw kw' (EM eq_refl)). reflexivity.
  - rewrite (prepare_same B r r' d1 s1 o i m D1). destruct (prepare (with_rand B r) d1 s1 o) as [[P p]|e']; reflexivity.
Qed.

Lemma sliver_same B rank pts d s kw kw' fuel : known kw -> known kw' -> same_except (sliver_ignored d s) kw kw' ->
  call_sliver_removal B rank pts d s kw fuel = call_sliver_removal B rank pts d s kw' fuel.
Proof.
  intros K K' E. unfold call_sliver_removal. destruct (0 <? rank)%nat; [reflexivity|].
  assert (GS : forall k, In k ["verbose"; "max_iter"; "geps_mult"; "min_dh_angle_bound"; "max_dh_angle_bound"; "gamma"; "preserve"; "perform_checks"]%string -> given k kw = given k kw').
  { intros k IN. apply E. unfold sliver_ignored. intros X. rewrite !in_app_iff in X.
    destruct (brings_h0 s), (brings_box d); cbn in X, IN; intuition (subst; discriminate). }
  assert (EH : brings_h0 s = false -> given "h0" kw = given "h0" kw').
  { intros Q. apply E. unfold sliver_ignored. rewrite Q. intros X. rewrite !in_app_iff in X. destruct (brings_box d); cbn in X; intuition discriminate. }
  assert (EB : brings_box d = false -> given "bbox" kw = given "bbox" kw').
  { intros Q. apply E. unfold sliver_ignored. rewrite Q. intros X. rewrite !in_app_iff in X. destruct (brings_h0 s); cbn in X; intuition discriminate. }
  rewrite <- (check_same kw kw' K K') by (apply GS; cbn; tauto). rewrite <- (read_domain_same cube_fd d s kw kw' EB).
  unfold read_sliver_options. rewrite <- (h0_same s kw kw' EH). 
  rewrite <- (opt_same "geps_mult" (ANum (PFloat (1 / 10))) kw kw'), <- (opt_same "max_iter" (ANum (PInt 50)) kw kw'), <- (opt_same "min_dh_angle_bound" (ANum (PFloat 10)) kw kw'),
    <- (opt_same "max_dh_angle_bound" (ANum (PFloat 180)) kw kw'), <- (opt_same "gamma" (ANum (PFloat 1)) kw kw'), <- (opt_same "perform_checks" (ABool false) kw kw'),
    <- (opt_same "preserve" (ABool false) kw kw') by (apply GS; cbn; tauto). reflexivity.
Qed.

(** the order of the keywords *)
Lemma given_in k v kw : NoDup (map fst kw) -> In (k, v) kw -> given k kw = Some v.
Proof.
  induction kw as [|[k' v'] kw IH]; intros N IN; [destruct IN|]. cbn [map fst] in N. inversion N as [|? ? N1 N2]; subst. cbn [given].
  destruct IN as [Q|IN]; [injection Q as -> ->; rewrite String.eqb_refl; reflexivity|].
  destruct (String.eqb_spec k k') as [->|_]; [|apply IH; assumption]. destruct N1. apply in_map_iff. exists (k', v). split; [reflexivity|exact IN].
Qed.
Lemma given_none k kw : ~ In k (map fst kw) -> given k kw = None.
Proof. induction kw as [|[k' v'] kw IH]; intros N; [reflexivity|]. cbn [given]. cbn in N. destruct (String.eqb_spec k k') as [->|_]; [destruct N; left; reflexivity|]. apply IH. intros X. apply N. right. exact X. Qed.
Lemma given_perm kw kw' : NoDup (map fst kw) -> Permutation kw kw' -> forall k, given k kw = given k kw'.
Proof.
  intros N P k. assert (N' : NoDup (map fst kw')) by (eapply Permutation_NoDup; [apply Permutation_map; exact P|exact N]).
  destruct (in_dec string_dec k (map fst kw)) as [IN|NI].
  - apply in_map_iff in IN. destruct IN as ([k0 v] & <- & IN). cbn [fst]. rewrite (given_in k0 v kw N IN). symmetry. apply given_in; [exact N'|]. eapply Permutation_in; eassumption.
  - rewrite (given_none k kw NI). symmetry. apply given_none. intros X. apply NI. eapply Permutation_in; [apply Permutation_map, Permutation_sym; exact P|exact X].
Qed.
Lemma known_cons k v kw : In k mesh_option_names -> known kw -> known ((k, v) :: kw).
Proof. intros I K k' [<- | X]; [exact I|apply K; exact X]. Qed.
