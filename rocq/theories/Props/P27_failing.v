(** C91: generate_mesh on several processes when one of them fails before the iterations. *)
From Coq Require Import Reals List Arith Bool ZArith Lia Lra.
From Flocq Require Import Core.
From Verif Require Import Model.Base Model.MPI Model.Process Model.SDF Model.Mesh Model.Forces Model.InitGrid Model.Interp Model.Blocker
  Model.Simplex Model.Migration Model.WhereTo Model.Generator Model.Parallel Spec.Lockstep Spec.MeshTopo Proofs.Choreo Proofs.ListAux Proofs.ProcessProofs
  Proofs.MeshAux Proofs.BlockerProofs Proofs.BlockerFloat Proofs.ParallelProofs Proofs.TriangProofs Proofs.StarveProofs Props.P13_blocks Props.P18_generate Props.P25_parallel.
Import ListNotations.
Local Open Scope nat_scope.

Lemma prun_any {M A} n (s s' : pnet M A) : prun no_buffering n s s' -> prun (@anything) n s s'.
Proof. intros H. induction H as [s|n b s s1 s' OK ST H IH]; [constructor|]. econstructor; [exact I|exact ST|exact IH]. Qed.
Lemma sends_all q u l f : sends_le q (send_all u l f) (count_occ Nat.eq_dec l q).
Proof.
  induction l as [|a l IH]; cbn [send_all sends_le count_occ]; [exact I|]. destruct (Nat.eq_dec a q) as [-> |N]; [rewrite Nat.eqb_refl; exact IH|].
  apply Nat.eqb_neq in N. rewrite N. exact IH.
Qed.
Lemma recv_sends q u l : sends_le q (recv_all u l) 0.
Proof. induction l as [|a l IH]; cbn [recv_all]; [exact I|]. cbn [sends_le]. intros m. apply (sends_bind q _ _ 0 0); [exact IH|]. intros x. exact I. Qed.
Lemma recv_needs f u l : In f l -> needs f (recv_all u l) 1.
Proof.
  induction l as [|a l IH]; intros H; [destruct H|]. cbn [recv_all]. rewrite needs_eq. intros m. destruct (Nat.eqb_spec a f) as [-> |N]; [apply needs_0|].
  apply needs_bind0, IH. destruct H; [congruence|assumption].
Qed.
Lemma rest_once size q : 0 < q < size -> count_occ Nat.eq_dec (seq 1 (size - 1)) q = 1.
Proof.
  intros L. pose proof (seq_NoDup (size - 1) 1) as ND. rewrite (NoDup_count_occ Nat.eq_dec) in ND. specialize (ND q).
  assert (In q (seq 1 (size - 1))) as I by (apply in_seq; lia). apply (count_occ_In Nat.eq_dec) in I. lia.
Qed.

Section F.
Variables (Q : par_backend) (size axis : nat) (d : dom_arg) (s : size_arg) (o : gen_opts) (fuel K : nat) (fd : pt -> R) (h0 : R).
Hypothesis S2 : 2 <= size.
Hypothesis AC : accepted d s o fd h0 K.
Notation dim := (the_dim d s).
Notation bbox := (full_bbox d s).
Notation geps := (o_geps_mult o * h0)%R.
(** what follows the start *)
Definition cont (r : nat) (x : result (started)) : proc pmsg out :=
  match x with
  | Err e => Done (Some (Err e))
  | Ok (fh, p, ext) =>
      if Rltb (o_max_iter o) 0 then Done (Some (Err ValueError)) else
      match p with
      | [] => Done (Some (Err AssertionError))
      | _ => par_loop Q size (mkProblem dim fd fh h0 (deps_of h0) geps (o_delta_t o) [] (o_subdomains o) (o_max_iter o) (o_perform_checks o) (o_mesh_improvement o)) ext r fuel 0 p
      end
  end.
Lemma whole r : r < size -> parallel_mesh Q size axis d s o fuel r = pbind (match o_points o with
             | None => generate_points_p Q size axis s o r dim bbox fd h0 geps
             | Some points => user_points_p Q size axis s r dim bbox h0 points
             end) (cont r).
Proof.
  intros L. destruct AC as (EF & EH & H0 & DD & _). unfold parallel_mesh. apply Nat.ltb_lt in L. rewrite L. unfold par_rank. rewrite EF, EH. rewrite (proj2 (Rltb_false _ _) H0).
  fold (the_dim d s). assert ((dim =? 2) || (dim =? 3) = true) as -> by (apply orb_true_iff; rewrite !Nat.eqb_eq; exact DD). reflexivity.
Qed.
Definition sz (r : nat) : proc pmsg (list R -> R) :=
  if lsf s then pbind (localize_sizing_p size r (lfh size axis s bbox h0)) (fun m => Done (sizing_in m)) else Done (size_fh s).
Definition n0 := if lsf s then 1 else 0.
Lemma sz_root q : 0 < q < size -> sends_le q (sz 0) n0.
Proof.
  intros L. unfold sz, n0. destruct (lsf s); [|exact I]. unfold localize_sizing_p. cbn [Nat.eqb]. rewrite pbind_assoc. cbn [pbind]. apply (sends_bind q _ _ 1 0); [|intros x; exact I].
  pose proof (sends_all q 11 (seq 1 (size - 1)) (lfh size axis s bbox h0)) as H. rewrite (rest_once size q L) in H. exact H.
Qed.
Lemma sz_leaf q r : 0 < r -> sends_le q (sz r) 0.
Proof. intros L. unfold sz. destruct (lsf s); [|exact I]. unfold localize_sizing_p. destruct (Nat.eqb_spec r 0); [lia|]. cbn. intros m. exact I. Qed.
Lemma sz_needs r : 0 < r -> needs 0 (sz r) n0.
Proof. intros L. unfold sz, n0. destruct (lsf s); [|apply needs_0]. unfold localize_sizing_p. destruct (Nat.eqb_spec r 0); [lia|]. cbn. intros m. exact I. Qed.
Notation grid := (grid_on_rank size axis d s o fd h0).
Lemma gen_eq r : generate_points_p Q size axis s o r dim bbox fd h0 geps = pbind (sz r) (fun fh =>
  match grid r with
  | [] => Done (Err ValueError)
  | _ => pbind (allreduce_min size r (r0m_of o h0 (map fh (grid r)))) (fun r0m =>
      match decimate Q r dim fh r0m (grid r) with
      | [] => Done (Err ValueError)
      | _ => pbind (bcasts_p size r (seq 0 size) (own_extent dim axis h0 (decimate Q r dim fh r0m (grid r)))) (fun ext => Done (Ok (fh, decimate Q r dim fh r0m (grid r), ext)))
      end)
  end).
Proof. reflexivity. Qed.
Hypothesis NOP : o_points o = None.
Notation P := (parallel_mesh Q size axis d s o fuel).
Lemma failing_sends q r : r < size -> grid r = [] -> 0 < q < size -> sends_le q (P r) (if r =? 0 then n0 else 0).
Proof.
  intros L E Lq. rewrite (whole r L), NOP, gen_eq, pbind_assoc. rewrite E. cbn [pbind cont].
  replace (if r =? 0 then n0 else 0) with ((if r =? 0 then n0 else 0) + 0) by lia. apply sends_bind; [|intros a; exact I].
  destruct (Nat.eqb_spec r 0) as [-> |N]; [apply sz_root, Lq|apply sz_leaf; lia].
Qed.
Lemma failing_sends0 r : 0 < r < size -> grid r = [] -> sends_le 0 (P r) 0.
Proof.
  intros L E. rewrite (whole r ltac:(lia)), NOP, gen_eq, pbind_assoc. rewrite E. cbn [pbind cont]. apply (sends_bind 0 _ _ 0 0); [apply sz_leaf; lia|]. intros a; exact I.
Qed.
Lemma leaf_needs q : 0 < q < size -> grid q <> [] -> needs 0 (P q) (n0 + 1).
Proof.
  intros L NE. rewrite (whole q ltac:(lia)), NOP, gen_eq, pbind_assoc. apply needs_bind; [apply sz_needs; lia|]. intros fh. destruct (grid q) as [|x g] eqn:E; [congruence|].
  apply needs_bind0, needs_bind0. unfold allreduce_min. destruct (Nat.eqb_spec q 0); [lia|]. cbn. intros m. exact I.
Qed.
Lemma root_needs f : 0 < f < size -> grid 0 <> [] -> needs f (P 0) 1.
Proof.
  intros L NE. rewrite (whole 0 ltac:(lia)), NOP, gen_eq, pbind_assoc. apply (needs_bind f _ _ 0 1); [apply needs_0|]. intros fh. destruct (grid 0) as [|x g] eqn:E; [congruence|].
  apply needs_bind0, needs_bind0. unfold allreduce_min. cbn [Nat.eqb]. apply needs_bind0, recv_needs. apply in_seq. lia.
Qed.
Lemma root_limited q f : 0 < f < size -> 0 < q < size -> grid 0 <> [] -> limited q f (P 0) n0 1.
Proof.
  intros L Lq NE. rewrite (whole 0 ltac:(lia)), NOP, gen_eq, pbind_assoc. replace n0 with (n0 + 0) by lia. apply limited_bind; [apply sz_root, Lq|]. intros fh. destruct (grid 0) as [|x g] eqn:E; [congruence|].
  rewrite pbind_assoc. unfold allreduce_min. cbn [Nat.eqb]. rewrite pbind_assoc. apply limited_wait; [apply recv_sends|]. apply recv_needs, in_seq. lia.
Qed.
Lemma empty_hangs f q : f < size -> q < size -> grid f = [] -> grid q <> [] -> forall n st a, prun (@anything) n (pstart P) st -> ~ ended st q a.
Proof.
  intros Lf Lq Ef Eq n st a RN. destruct (prun_bruns _ _ _ _ _ _ RN) as (k & _ & B). destruct (Nat.eq_dec f 0) as [-> |Nf]; [|destruct (Nat.eq_dec q 0) as [-> |Nq]].
  - assert (0 < q) as Q0 by (destruct q; [congruence|lia]). refine (starved_once _ _ _ q 0 _ _ _ _ B a); [lia|].
    exists (n0 + 1), n0. cbn [pstart pp pc length]. split; [apply leaf_needs; [lia|exact Eq]|]. split; [exact (failing_sends q 0 Lf Ef ltac:(lia))|lia].
  - refine (starved_once _ _ _ 0 f _ _ _ _ B a); [lia|]. exists 1, 0. cbn [pstart pp pc length]. split; [apply root_needs; [lia|exact Eq]|]. split; [apply failing_sends0; [lia|exact Ef]|lia].
  - destruct (grid 0) as [|x g] eqn:E0.
    + refine (starved_once _ _ _ q 0 _ _ _ _ B a); [lia|].
      exists (n0 + 1), n0. cbn [pstart pp pc length]. split; [apply leaf_needs; [lia|exact Eq]|]. split; [exact (failing_sends q 0 ltac:(lia) E0 ltac:(lia))|lia].
    + assert (q <> f) as NQF by congruence. refine (starved_twice _ _ _ q 0 f _ _ _ _ _ _ B a); [lia|lia|exact NQF|].
      exists (n0 + 1), n0, 1, 0. cbn [pstart pp pc length]. split; [apply leaf_needs; [lia|exact Eq]|]. split; [apply root_limited; [lia|lia|rewrite E0; discriminate]|].
      split; [lia|]. split; [apply failing_sends0; [lia|exact Ef]|lia].
Qed.
(** ---- all points of a rank are thinned out ---- *)
Definition pre (r : nat) : proc pmsg ((list R -> R) * R) :=
  if r <? size then pbind (sz r) (fun fh => pbind (allreduce_min size r (r0m_of o h0 (map fh (grid r)))) (fun r0m => Done (fh, r0m)))
  else Done (fun _ => 0%R, 0%R).
Definition post (r : nat) (x : (list R -> R) * R) : proc pmsg out :=
  if r <? size then
    pbind (match decimate Q r dim (fst x) (snd x) (grid r) with
      | [] => Done (Err ValueError)
      | _ => pbind (bcasts_p size r (seq 0 size) (own_extent dim axis h0 (decimate Q r dim (fst x) (snd x) (grid r)))) (fun ext => Done (Ok (fst x, decimate Q r dim (fst x) (snd x) (grid r), ext)))
      end) (cont r)
  else Done None.
Lemma split_mesh : (forall r, r < size -> grid r <> []) -> P = fun r => pbind (pre r) (post r).
Proof.
  intros NE. apply FunctionalExtensionality.functional_extensionality. intros r. unfold pre, post. destruct (Nat.ltb_spec r size) as [L|L].
  - rewrite (whole r L), NOP, gen_eq, !pbind_assoc. f_equal. apply FunctionalExtensionality.functional_extensionality. intros fh. specialize (NE r L). destruct (grid r) as [|x g] eqn:E; [congruence|].
    rewrite !pbind_assoc. reflexivity.
  - cbn [pbind]. unfold parallel_mesh. apply Nat.ltb_ge in L. rewrite L. reflexivity.
Qed.
Lemma rank_fh_same r : rank_fh size axis s bbox h0 r = size_on_rank size axis d s h0 r.
Proof. unfold rank_fh, size_on_rank, lsf. destruct s; reflexivity. Qed.
Definition ch0 : list (msg pmsg) := (if lsf s then star_out 11 0 (seq 1 (size - 1)) (lfh size axis s bbox h0) else []) ++
  (star_in coll 0 (seq 1 (size - 1)) (fun q => MNum (r0m_of o h0 (map (rank_fh size axis s bbox h0 q) (grid q)))) ++
   star_out coll 0 (seq 1 (size - 1)) (fun _ => MNum (min_all size (fun r => r0m_of o h0 (map (rank_fh size axis s bbox h0 r) (grid r)))))) ++ [].
Notation r0 := (min_all size (fun r => r0m_of o h0 (map (rank_fh size axis s bbox h0 r) (grid r)))).
Lemma plays_pre : plays size ch0 pre (fun r => (rank_fh size axis s bbox h0 r, r0)).
Proof.
  unfold ch0. apply plays_ext with (f := fun r => pbind (sz r) (fun fh => pbind (allreduce_min size r (r0m_of o h0 (map fh (grid r)))) (fun r0m => Done (fh, r0m)))).
  { intros r L. unfold pre. apply Nat.ltb_lt in L. rewrite L. reflexivity. }
  apply (plays_bind size _ _ sz (rank_fh size axis s bbox h0)).
  { unfold rank_fh, sz. destruct (lsf s); [|apply (plays_done size (fun _ => size_fh s))]. rewrite <- (app_nil_r (star_out _ _ _ _)).
    apply (plays_bind size _ _ (fun r => localize_sizing_p size r (lfh size axis s bbox h0)) (lfh size axis s bbox h0)); [apply plays_sizing; exact S2|]. apply (plays_done size (fun r => sizing_in (lfh size axis s bbox h0 r))). }
  apply (plays_bind size _ _ (fun r => allreduce_min size r (r0m_of o h0 (map (rank_fh size axis s bbox h0 r) (grid r)))) (fun _ => r0)); [apply plays_allreduce; exact S2|].
  apply (plays_done size (fun r => (rank_fh size axis s bbox h0 r, r0))).
Qed.
Lemma ch0_inside : inside size ch0.
Proof.
  assert (forall q, In q (seq 1 (size - 1)) -> q < size /\ q <> 0) as RR by (intros q Hq; apply in_seq in Hq; lia).
  unfold ch0. repeat apply inside_app; [destruct (lsf s); [apply star_out_inside; [lia|exact RR]|intros x []]|apply star_in_inside; [lia|exact RR]|apply star_out_inside; [lia|exact RR]|intros x []].
Qed.
Lemma bcasts_needs f q mine : q <> f -> forall roots, In f roots -> needs f (bcasts_p size q roots mine) 1.
Proof.
  intros N. induction roots as [|a l IH]; intros H; [destruct H|]. cbn [bcasts_p]. destruct (Nat.eq_dec a f) as [-> |Na].
  - apply needs_bind0. unfold bcast_p. destruct (Nat.eqb_spec q f); [congruence|]. rewrite needs_eq. intros m. rewrite Nat.eqb_refl. apply needs_0.
  - apply (needs_bind f _ _ 0 1); [apply needs_0|]. intros m. apply needs_bind0, IH. destruct H; [congruence|assumption].
Qed.
Lemma thinned_hangs f q : (forall r, r < size -> grid r <> []) -> f < size -> q < size ->
  decimate Q f dim (rank_fh size axis s bbox h0 f) r0 (grid f) = [] -> decimate Q q dim (rank_fh size axis s bbox h0 q) r0 (grid q) <> [] ->
  forall n st a, prun (@anything) n (pstart P) st -> ~ ended st q a.
Proof.
  intros NE Lf Lq Ef Eq.
  set (v := fun r => if r <? size then (rank_fh size axis s bbox h0 r, r0) else (fun _ => 0%R, 0%R)).
  assert (forall r, follows _ _ (pre r) (project _ ch0 r) (flat_map (to _ r) ch0) (v r)) as FO.
  { intros r. unfold v. destruct (Nat.ltb_spec r size) as [L|L]; [apply plays_pre, L|]. destruct (inside_prj size ch0 r ch0_inside L) as [-> ->].
    unfold pre. apply Nat.ltb_ge in L. rewrite L. constructor. }
  assert (forall x, In x ch0 -> src _ x <> dst _ x) as ND by (intros x Hx; apply (ch0_inside x Hx)).
  destruct (proc_completes _ _ ch0 pre v ND FO 0 _ (prun_nil _ _)) as (k & s' & R & E). apply prun_any in R.
  destruct (proc_choreography _ _ ch0 pre v ND FO _ _ _ R) as (_ & _ & D). destruct (D E) as [C V].
  apply (followed_run _ _ _ _ post) in R.
  assert (followed_by (pstart pre) post = pstart P) as ES by (rewrite (split_mesh NE); reflexivity). rewrite ES in R.
  refine (starved_later _ _ P _ _ q R _). refine (starved_once _ _ _ q f _ _); [intros ->; congruence|].
  exists 1, 0. unfold followed_by. cbn [pp pc]. rewrite C. pose proof (V q) as Vq. pose proof (V f) as Vf. unfold ended in Vq, Vf. rewrite Vq, Vf. unfold v. cbn [pbind length].
  rewrite (proj2 (Nat.ltb_lt _ _) Lf), (proj2 (Nat.ltb_lt _ _) Lq). unfold post. rewrite (proj2 (Nat.ltb_lt _ _) Lf), (proj2 (Nat.ltb_lt _ _) Lq). cbn [fst snd]. rewrite Ef. split; [|split; [exact I|lia]].
  destruct (decimate Q q dim _ r0 (grid q)) as [|x g] eqn:EQ; [congruence|]. apply needs_bind0, needs_bind0. apply bcasts_needs; [intros ->; congruence|]. apply in_seq. lia.
Qed.
End F.

(** ---- fewer blocks than ranks ---- *)
Section B.
Variables (Q : par_backend) (size axis : nat) (d : dom_arg) (s : size_arg) (o : gen_opts) (fuel K : nat) (fd : pt -> R) (h0 : R).
Hypothesis S2 : 2 <= size.
Hypothesis AC : accepted d s o fd h0 K.
Variables (points : list pt) (blocks : list (list (list R))) (ext : list (list R)).
Hypothesis UP : o_points o = Some points.
Hypothesis EB : blocker (q_rnd Q) (the_dim d s) points size axis = Ok (blocks, ext).
Hypothesis FEW : length blocks < size.
Notation P := (parallel_mesh Q size axis d s o fuel).
Lemma others_once root q : q <> root -> q < size -> count_occ Nat.eq_dec (others size root) q = 1.
Proof.
  intros N L. assert (NoDup (others size root)) as ND by (apply NoDup_filter, seq_NoDup). rewrite (NoDup_count_occ Nat.eq_dec) in ND. specialize (ND q).
  assert (In q (others size root)) as I. { apply filter_In. split; [apply in_seq; lia|]. apply negb_true_iff, Nat.eqb_neq, N. } apply (count_occ_In Nat.eq_dec) in I. lia.
Qed.
Lemma bcast_root_sends q m : 0 < q < size -> sends_le q (bcast_p size 0 0 m) 1.
Proof.
  intros L. unfold bcast_p. cbn [Nat.eqb]. apply (sends_bind q _ _ 1 0); [|intros a; exact I]. pose proof (sends_all q coll (others size 0) (fun _ => m)) as H. rewrite others_once in H by lia. exact H.
Qed.
Lemma deal_sends q : 0 < q < size -> forall n a, sends_le q (deal_p size blocks ext (seq a n)) ((length blocks - a) + (if (a <=? q) && (q <? length blocks) then 1 else 0)).
Proof.
  intros L. induction n as [|n IH]; intros a; cbn [seq deal_p]; [exact I|]. destruct (nth_error blocks a) as [b|] eqn:E; [|exact I].
  assert (a < length blocks) as La by (apply nth_error_Some; congruence). specialize (IH (S a)). cbn [sends_le].
  assert (sends_le q (pbind (bcast_p size 0 0 (MPts ext)) (fun _ => deal_p size blocks ext (seq (S a) n))) (1 + (length blocks - S a + (if (S a <=? q) && (q <? length blocks) then 1 else 0)))) as G.
  { apply sends_bind; [apply bcast_root_sends, L|]. intros _. exact IH. }
  destruct (Nat.eqb_spec a q) as [-> |N].
  - rewrite Nat.leb_refl. replace (S q <=? q) with false in G by (symmetry; apply Nat.leb_gt; lia). rewrite (proj2 (Nat.ltb_lt q (length blocks)) La) in *. cbn [andb] in *.
    destruct (length blocks - q + 1) as [|g] eqn:Eg; [lia|]. revert G. apply sends_le_mono. lia.
  - replace (a <=? q) with (S a <=? q) by (apply eq_true_iff_eq; rewrite !Nat.leb_le; lia). revert G. apply sends_le_mono. lia.
Qed.
Lemma deal_err X : forall n a (k : result unit -> proc pmsg X), a + n = size -> a <= length blocks \/ 0 < n ->
  pbind (deal_p size blocks ext (seq a n)) k = pbind (deal_p size blocks ext (seq a n)) (fun _ => k (Err OtherError)).
Proof.
  induction n as [|n IH]; intros a k E H; [lia|]. cbn [seq deal_p]. destruct (nth_error blocks a) as [b|] eqn:Ea; [|reflexivity].
  assert (a < length blocks) as La by (apply nth_error_Some; congruence). cbn [pbind]. f_equal. rewrite !pbind_assoc. f_equal. apply FunctionalExtensionality.functional_extensionality. intros _. apply IH; lia.
Qed.
Lemma root_sends q : 0 < q < size -> sends_le q (P 0) (1 + size - 1).
Proof.
  intros L. rewrite (whole Q size axis d s o fuel K fd h0 AC 0 ltac:(lia)), UP. unfold user_points_p. cbn [Nat.eqb]. rewrite EB. rewrite pbind_assoc. replace (1 + size - 1) with (1 + (size - 1)) by lia. apply sends_bind.
  { unfold localize_sizing_p. cbn [Nat.eqb]. apply (sends_bind q _ _ 1 0); [|intros x; exact I].
    pose proof (sends_all q 11 (seq 1 (size - 1)) (local_grid_sizes (size_fh s) (pairs_of (full_bbox d s)) size axis h0)) as H. rewrite (rest_once size q L) in H. exact H. }
  intros m. rewrite pbind_assoc. unfold localize_points_p. cbn [Nat.eqb]. rewrite pbind_assoc. rewrite deal_err by lia. cbn [pbind cont].
  apply sends_le_mono with (g := (length blocks - 1) + (if (1 <=? q) && (q <? length blocks) then 1 else 0) + 0).
  { destruct (Nat.leb_spec 1 q), (Nat.ltb_spec q (length blocks)); cbn [andb]; lia. }
  apply sends_bind; [apply deal_sends, L|]. intros a. exact I.
Qed.
Lemma take_needs q : q <> 0 -> forall l p e, needs 0 (take_p size q l p e) (length l + count_occ Nat.eq_dec l q).
Proof.
  intros N. induction l as [|a l IH]; intros p e; [apply needs_0|]. cbn [take_p length count_occ]. unfold bcast_p. apply Nat.eqb_neq in N as N'. rewrite N'.
  destruct (Nat.eq_dec a q) as [-> |Na].
  - rewrite Nat.eqb_refl. cbn [pbind]. rewrite Nat.add_succ_r. cbn [Nat.add]. rewrite needs_eq. intros m. cbn [Nat.eqb]. rewrite needs_eq. intros m'. cbn [Nat.eqb]. apply IH.
  - apply Nat.eqb_neq in Na. rewrite Nat.eqb_sym, Na. cbn [pbind Nat.add]. rewrite needs_eq. intros m. cbn [Nat.eqb]. apply IH.
Qed.
Lemma user_needs q : 0 < q < size -> needs 0 (P q) (1 + size).
Proof.
  intros L. rewrite (whole Q size axis d s o fuel K fd h0 AC q ltac:(lia)), UP. unfold user_points_p. destruct (Nat.eqb_spec q 0) as [|N]; [lia|]. rewrite pbind_assoc. apply needs_bind.
  { unfold localize_sizing_p. destruct (Nat.eqb_spec q 0); [lia|]. rewrite needs_eq. intros m. cbn [Nat.eqb]. apply needs_0. }
  intros m. apply needs_bind0, needs_bind0. unfold localize_points_p. destruct (Nat.eqb_spec q 0); [lia|]. apply needs_bind0.
  pose proof (take_needs q N (seq 1 (size - 1)) [] []) as H. rewrite seq_length, (rest_once size q L) in H. assert (size - 1 + 1 = size) as E by lia. rewrite E in H. exact H.
Qed.
Lemma few_hangs q : 0 < q < size -> forall n st a, prun (@anything) n (pstart P) st -> ~ ended st q a.
Proof.
  intros L n st a RN. destruct (prun_bruns _ _ _ _ _ _ RN) as (k & _ & B). refine (starved_once _ _ _ q 0 _ _ _ _ B a); [lia|].
  exists (1 + size), (1 + size - 1). cbn [pstart pp pc length]. split; [apply user_needs, L|]. split; [apply root_sends, L|lia].
Qed.
Lemma few_root n st a : prun (@anything) n (pstart P) st -> ended st 0 a -> a = Some (Err OtherError).
Proof.
  intros RN E. pose (phi := fun (r : nat) (x : out) => r = 0 -> x = Some (Err OtherError)).
  assert (forall r, every (phi r) (P r)) as EV.
  { intros r. destruct r as [|r].
    - rewrite (whole Q size axis d s o fuel K fd h0 AC 0 ltac:(lia)), UP. unfold user_points_p. cbn [Nat.eqb]. rewrite EB. rewrite pbind_assoc. apply every_any. intros m.
      rewrite pbind_assoc. unfold localize_points_p. cbn [Nat.eqb]. rewrite pbind_assoc. rewrite deal_err by lia. apply every_any. intros x. cbn. intros _. reflexivity.
    - assert (forall p : proc pmsg out, every (phi (S r)) p) as G by (induction p as [x|q u m p IH|q u f IH]; cbn; [intros ?; discriminate|exact IH|exact IH]). apply G. }
  pose proof (every_run phi _ _ _ _ EV RN 0) as H. unfold ended in E. rewrite E in H. exact (H eq_refl).
Qed.
End B.

(** No starting points in the slab of one rank: this rank fails, and the ranks that do have points never return, under every
    schedule and buffering. *)
Theorem C91_empty_slab_hangs : forall Q size axis d s o fuel K fd h0 f q, 2 <= size -> accepted d s o fd h0 K -> o_points o = None ->
  f < size -> q < size -> grid_on_rank size axis d s o fd h0 f = [] -> grid_on_rank size axis d s o fd h0 q <> [] ->
  forall n st a, prun (@anything) n (pstart (parallel_mesh Q size axis d s o fuel)) st -> ~ ended st q a.
Proof. intros Q size axis d s o fuel K fd h0 f q S2 AC NOP Lf Lq Ef Eq. exact (empty_hangs Q size axis d s o fuel K fd h0 S2 AC NOP f q Lf Lq Ef Eq). Qed.
Print Assumptions C91_empty_slab_hangs.
(** All starting points of one rank thinned out by the size function: the other ranks never return. *)
Theorem C91_thinned_out_hangs : forall Q size axis d s o fuel K fd h0 r0m f q, 2 <= size -> accepted d s o fd h0 K -> o_points o = None ->
  (forall r, r < size -> grid_on_rank size axis d s o fd h0 r <> []) ->
  is_least size (fun r => r0m_of o h0 (map (size_on_rank size axis d s h0 r) (grid_on_rank size axis d s o fd h0 r))) r0m ->
  f < size -> q < size -> selected_on_rank Q size axis d s o fd h0 r0m f = [] -> selected_on_rank Q size axis d s o fd h0 r0m q <> [] ->
  forall n st a, prun (@anything) n (pstart (parallel_mesh Q size axis d s o fuel)) st -> ~ ended st q a.
Proof.
  intros Q size axis d s o fuel K fd h0 r0m f q S2 AC NOP NE LE Lf Lq Ef Eq.
  assert (min_all size (fun r => r0m_of o h0 (map (rank_fh size axis s (full_bbox d s) h0 r) (grid_on_rank size axis d s o fd h0 r))) = r0m) as EM.
  { apply (least_unique size (fun r => r0m_of o h0 (map (size_on_rank size axis d s h0 r) (grid_on_rank size axis d s o fd h0 r)))); [|exact LE].
    match goal with |- is_least _ ?x (min_all _ ?y) => assert (x = y) as -> end; [|apply min_all_least, S2].
    apply FunctionalExtensionality.functional_extensionality. intros r. rewrite (rank_fh_same size axis d s o K fd h0 AC r). reflexivity. }
  refine (thinned_hangs Q size axis d s o fuel K fd h0 S2 AC NOP f q NE Lf Lq _ _); rewrite EM, (rank_fh_same size axis d s o K fd h0 AC); [exact Ef|exact Eq].
Qed.
Print Assumptions C91_thinned_out_hangs.
(** User points that fill fewer blocks than there are ranks: rank 0 fails with an index error, the other ranks never return. *)
Theorem C91_too_few_blocks_hangs : forall Q size axis d s o fuel K fd h0 points blocks ext, 2 <= size -> accepted d s o fd h0 K -> o_points o = Some points ->
  blocker (q_rnd Q) (the_dim d s) points size axis = Ok (blocks, ext) -> length blocks < size ->
  forall n st, prun (@anything) n (pstart (parallel_mesh Q size axis d s o fuel)) st ->
    (forall q a, 0 < q < size -> ~ ended st q a) /\ forall a, ended st 0 a -> a = Some (Err OtherError).
Proof.
  intros Q size axis d s o fuel K fd h0 points blocks ext S2 AC UP EB FEW n st RN. split.
  - intros q a L. exact (few_hangs Q size axis d s o fuel K fd h0 S2 AC points blocks ext UP EB FEW q L n st a RN).
  - intros a E. exact (few_root Q size axis d s o fuel K fd h0 S2 AC points blocks ext UP EB FEW n st a RN E).
Qed.
Print Assumptions C91_too_few_blocks_hangs.

(** ---- concrete cases: rectangle (0,4) x (0,1), two processes; the domain is the left quarter / the size is 10 in the right half ---- *)
Local Open Scope R_scope.
Definition left_quarter (x : list R) : R := nth 0 x 0 - 1.
Definition coarse_right (x : list R) : R := if Rltb (nth 0 x 0) (5/2) then 1 else 10.
Definition Qh : par_backend :=
  mkPar (fun _ _ p => (p, [[0;1;2]%nat])) (fun _ _ p recv => (p ++ recv, [[0;1;2]%nat])) (fun _ _ => true) (fun _ => 0) (fun x => x)
    (fun _ => mkBackend (fun _ p => (p, [])) (nodup key_dec) (nodup row_dec) (fun _ x => map Rdefinitions.up x) ve_pairs (fun p _ => p) (fun n => repeat (1/2) n)).
Lemma grid_quarter : grid_on_rank 2 0 (DFunction left_quarter [0;4;0;1]) siz2 opt2 left_quarter 1 0 <> [] /\ grid_on_rank 2 0 (DFunction left_quarter [0;4;0;1]) siz2 opt2 left_quarter 1 1 = [].
Proof.
  unfold grid_on_rank. cbn [full_bbox siz2 size_bbox dom_bbox pairs_of opt2 o_geps_mult]. destruct grids2 as [-> ->]. unfold pts0, pts1, left_quarter. cbn [filter nth].
  repeat match goal with |- context [Rltb ?a ?b] => first [rewrite (proj2 (Rltb_true a b)) by lra | rewrite (proj2 (Rltb_false a b)) by lra] end. split; [discriminate|reflexivity].
Qed.
Lemma grid_full s r : (r < 2)%nat -> size_bbox s = None -> grid_on_rank 2 0 dom2 s opt2 (fun _ => -1) 1 r = own r.
Proof.
  intros L E. unfold grid_on_rank. assert (full_bbox dom2 s = [0;4;0;1]) as -> by (unfold full_bbox; rewrite E; reflexivity). cbn [pairs_of opt2 o_geps_mult].
  assert (make_init_points [(0, 4); (0, 1)] r 2 0 1 = own r) as -> by (destruct r as [|[|r]]; [apply grids2|apply grids2|lia]).
  assert (Rltb (-1) (1 / 10 * 1) = true) as E' by (apply Rltb_true; lra). rewrite E'. apply filter_all. reflexivity.
Qed.
Example C91_case :
  (* no points on rank 1 *)
  (accepted (DFunction left_quarter [0;4;0;1]) siz2 opt2 left_quarter 1 2 /\ grid_on_rank 2 0 (DFunction left_quarter [0;4;0;1]) siz2 opt2 left_quarter 1 1 = [] /\
   forall fuel n st a, prun (@anything) n (pstart (parallel_mesh Qh 2 0 (DFunction left_quarter [0;4;0;1]) siz2 opt2 fuel)) st -> ~ ended st 0%nat a) /\
  (* points on rank 1 thinned out *)
  (accepted dom2 (SFunction coarse_right) opt2 (fun _ => -1) 1 2 /\ selected_on_rank Qh 2 0 dom2 (SFunction coarse_right) opt2 (fun _ => -1) 1 1 1 = [] /\
   forall fuel n st a, prun (@anything) n (pstart (parallel_mesh Qh 2 0 dom2 (SFunction coarse_right) opt2 fuel)) st -> ~ ended st 0%nat a).
Proof.
  assert (forall D s g, length (full_bbox D s) = 4%nat -> meshed_fd D s = Some g -> the_h0 s opt2 = Some 1 -> accepted D s opt2 g 1 2) as ACC.
  { intros D s g E1 E2 E3. split; [exact E2|]. split; [exact E3|]. split; [lra|]. split; [left; unfold the_dim; rewrite E1; reflexivity|]. split; [cbn; lra|lia]. }
  split.
  - assert (accepted (DFunction left_quarter [0;4;0;1]) siz2 opt2 left_quarter 1 2) as AC by (apply ACC; reflexivity). split; [exact AC|]. split; [apply grid_quarter|].
    intros fuel. apply (C91_empty_slab_hangs Qh 2 0 _ _ _ fuel 2 left_quarter 1 1 0 ltac:(lia) AC eq_refl ltac:(lia) ltac:(lia)); apply grid_quarter.
  - assert (accepted dom2 (SFunction coarse_right) opt2 (fun _ => -1) 1 2) as AC by (apply ACC; reflexivity). split; [exact AC|].
    assert (forall r, (r < 2)%nat -> grid_on_rank 2 0 dom2 (SFunction coarse_right) opt2 (fun _ => -1) 1 r = own r) as EG by (intros r L; apply grid_full; [exact L|reflexivity]).
    assert (selected_on_rank Qh 2 0 dom2 (SFunction coarse_right) opt2 (fun _ => -1) 1 1 1 = []) as E1.
    { unfold selected_on_rank. rewrite EG by lia. cbn [own pts1 length Qh q_serial b_rand repeat seq filter nth size_on_rank]. unfold coarse_right, the_dim. cbn [nth full_bbox dom2 size_bbox dom_bbox length Nat.div2].
      repeat match goal with |- context [Rltb ?a (5/2)] => rewrite (proj2 (Rltb_false a (5/2))) by lra end. rewrite (proj2 (Rltb_false (1/2) _)) by lra. reflexivity. }
    split; [exact E1|]. intros fuel. apply (C91_thinned_out_hangs Qh 2 0 _ _ _ fuel 2 (fun _ => -1) 1 1 1 0 ltac:(lia) AC eq_refl).
    + intros r L. rewrite EG by exact L. destruct r as [|[|r]]; [discriminate|discriminate|lia].
    + assert (forall r, (r < 2)%nat -> r0m_of opt2 1 (map (size_on_rank 2 0 dom2 (SFunction coarse_right) 1 r) (grid_on_rank 2 0 dom2 (SFunction coarse_right) opt2 (fun _ => -1) 1 r)) = match r with O => 1 | _ => 10 end) as EM.
      { intros r L. rewrite EG by exact L. unfold r0m_of. cbn [opt2 o_r0m_is_h0]. destruct r as [|[|r]]; [| |lia]; cbn [own pts0 pts1 map size_on_rank]; unfold coarse_right; cbn [nth].
        - repeat match goal with |- context [Rltb ?a (5/2)] => rewrite (proj2 (Rltb_true a (5/2))) by lra end. cbn. unfold Rmin. repeat (destruct (Rle_dec _ _); try lra).
        - repeat match goal with |- context [Rltb ?a (5/2)] => rewrite (proj2 (Rltb_false a (5/2))) by lra end. cbn. unfold Rmin. repeat (destruct (Rle_dec _ _); try lra). }
      split; [intros r L; rewrite EM by exact L; destruct r as [|[|r]]; lra|]. exists 0%nat. split; [lia|]. symmetry. apply EM. lia.
    + lia.
    + lia.
    + exact E1.
    + unfold selected_on_rank. rewrite EG by lia. cbn [own pts0 length Qh q_serial b_rand repeat seq filter nth size_on_rank]. unfold coarse_right, the_dim. cbn [nth full_bbox dom2 size_bbox dom_bbox length Nat.div2].
      repeat match goal with |- context [Rltb ?a (5/2)] => rewrite (proj2 (Rltb_true a (5/2))) by lra end. rewrite (proj2 (Rltb_true (1/2) _)) by lra. discriminate.
Qed.
(** six points, three processes: two blocks only *)
Definition opt6 : gen_opts := mkOpts 2 false [] (Some [[0;0];[1;0];[0;1];[1;1];[2;0];[2;1]]) 0 (1/10) None false false (Some 1).
Example C91_case_blocks : accepted dom2 siz2 opt6 (fun _ => -1) 1 2 /\
  (exists blocks ext, blocker (q_rnd Qh) (the_dim dom2 siz2) [[0;0];[1;0];[0;1];[1;1];[2;0];[2;1]] 3 0 = Ok (blocks, ext) /\ (length blocks < 3)%nat) /\
  forall fuel n st, prun (@anything) n (pstart (parallel_mesh Qh 3 0 dom2 siz2 opt6 fuel)) st -> forall q a, (0 < q < 3)%nat -> ~ ended st q a.
Proof.
  assert (accepted dom2 siz2 opt6 (fun _ => -1) 1 2) as AC.
  { split; [reflexivity|]. split; [reflexivity|]. split; [lra|]. split; [left; reflexivity|]. split; [cbn; lra|lia]. }
  split; [exact AC|]. destruct C62_case as [_ (b0 & b1 & e & E)]. split; [exists [b0; b1], e; split; [exact E|cbn; lia]|].
  intros fuel n st RN. exact (proj1 (C91_too_few_blocks_hangs Qh 3 0 dom2 siz2 opt6 fuel 2 (fun _ => -1) 1 _ [b0; b1] e ltac:(lia) AC eq_refl E ltac:(cbn; lia) n st RN)).
Qed.
