(** C92: linter (option perform_checks). *)
From Coq Require Import Reals List Arith Bool ZArith Lia Lra Permutation.
From Verif Require Import Model.Base Model.SDF Model.Simplex Model.Mesh Model.Formulas Model.Generator Spec.MeshTopo Spec.Linear Spec.Lint
  Proofs.ListAux Proofs.MeshAux Proofs.VtoeProofs Proofs.EdgeProofs Proofs.TopoProofs Proofs.FixMeshProofs Proofs.DeleteProofs Proofs.SimplexProofs Proofs.OverlapProofs Proofs.ForceProofs Proofs.GenLoop
  Spec.Lockstep Proofs.AggregateProofs Proofs.PointInProofs Proofs.LintProofs Props.P07_simplex Props.P18_generate.
Import ListNotations.
Local Open Scope R_scope.

(** argsort sorts; the snapping of fix_mesh merges no two different vertices of p *)
Definition sorts (B : backend) : Prop := forall t, Permutation (b_ve B t) (ve_pairs t) /\ ascending (map fst (b_ve B t)).
Definition merges_nothing (B : backend) (p : list (list R)) : Prop := forall q x y, (forall z, In z q -> In z p) -> In x q -> In y q -> b_key B q x = b_key B q y -> x = y.

Lemma reported_pairs dim p t ve i j : overlap_mesh dim p t ve ->
  (In (i, j) (do_any_overlap dim p t ve) <-> (i < length t)%nat /\ (j < length t)%nat /\ i <> j /\ centre_in dim p (nth i t []) (nth j t [])).
Proof. intros M. rewrite (C49_exactly dim p t ve i j M). unfold centre_in, corner_points, centre, mean. cbv zeta. tauto. Qed.
Lemma deleted_ones B dim p t e : overlap_mesh dim p t (b_ve B t) -> (e < length t)%nat ->
  (In e (lint_delete p t (do_any_overlap dim p t (b_ve B t))) <-> loses dim p t e).
Proof.
  intros M L. rewrite lint_delete_in. unfold loses, entity_qual, corner_points. split.
  - intros (f & [[I H]|[I H]]); apply (reported_pairs _ _ _ _ _ _ M) in I; exists f; (split; [tauto|]); (split; [intros ->; tauto|]); tauto.
  - intros (f & Lf & N & [[C H]|[C H]]); exists f; [left|right]; (split; [|exact H]); apply (reported_pairs _ _ _ _ _ _ M); repeat split; auto; apply C.
Qed.
Lemma part_trans d Q1 Q2 p t p1 t1 p2 t2 : part_of d Q1 p t p1 t1 -> part_of d Q2 p1 t1 p2 t2 -> part_of d Q1 p t p2 t2.
Proof.
  intros [A1 A2 A3 A4 A5 A6] [B1 B2 B3 B4 B5 B6]. split; try assumption; [intros q I; apply A2, B2, I|]. intros r I. destruct (B6 r I) as (i & Li & _ & P).
  destruct (A6 (nth i t1 []) ltac:(apply nth_In, Li)) as (e & Le & HQ & P'). exists e. split; [exact Le|]. split; [exact HQ|]. rewrite P. exact P'.
Qed.

Section Main.
Variables (B : backend) (dim : nat) (mq : R) (p : list (list R)) (t : list row) (p' : list (list R)) (t' : list row).
Hypothesis HB : good_backend B.
Hypothesis SO : sorts B.
Hypothesis OM : overlap_mesh dim p t (b_ve B t).
Hypothesis ND : NoDup p.
Hypothesis MN : merges_nothing B p.
Hypothesis OK : linter B dim mq p t = Ok (p', t').
Notation del := (lint_delete p t (do_any_overlap dim p t (b_ve B t))).
Lemma first_stage p1 t1 : run_fix B p (drop_rows del t) = Ok (p1, t1) -> part_of dim (fun e => ~ loses dim p t e) p t p1 t1 /\
  forall e, (e < length t)%nat -> ~ loses dim p t e -> exists r, In r t1 /\ Permutation (corner_points p1 r) (corner_points p (nth e t [])).
Proof.
  intros H. unfold run_fix in H. destruct (fix_mesh _ _ _ p _ true true) as [[[q u] jx]|] eqn:E; [|discriminate]. injection H as -> ->. destruct HB as [HK HR]. pose proof OM as [D [_ [_ [SX [US _]]]]].
  destruct (fix_mesh_clean _ _ _ HK HR _ _ (fix_mesh_valid _ _ _ _ _ _ _ _ E) true true p1 t1 jx E) as [C U].
  assert (injective_on (b_key B p) p) as J by (intros x y; apply MN; auto).
  split.
  - apply (part_of_clean dim p t ND SX US (b_key B p) (drop_rows del t)); [exact C|exact J|exact (U eq_refl)|]. intros r I. apply drop_rows_spec in I. destruct I as (e & L & N & ->). exists e.
    split; [exact L|]. split; [|reflexivity]. rewrite <- (deleted_ones B dim p t e OM L). exact N.
  - intros e L N. destruct (clean_cells _ _ _ _ _ C J) as (_ & FW & _).
    + intros r v I Iv. apply drop_rows_in in I. apply US. eauto.
    + apply FW, drop_rows_spec. exists e. split; [exact L|]. split; [|reflexivity]. rewrite (deleted_ones B dim p t e OM L). exact N.
Qed.
Lemma result : part_of dim (fun e => ~ loses dim p t e) p t p' t' /\
  forall e, (e < length t)%nat -> ~ loses dim p t e -> (dim = 3%nat \/ forall q, simp_qual (corner_points p (nth e t [])) = Some q -> mq <= q) ->
    exists r, In r t' /\ Permutation (corner_points p' r) (corner_points p (nth e t [])).
Proof.
  pose proof OK as H. unfold linter in H. destruct (run_fix B p _) as [[p1 t1]|] eqn:E1; [|discriminate]. cbn [rbind fst snd] in H. destruct (first_stage p1 t1 E1) as [PA FW].
  pose proof OM as [D [_ [_ [SX [US PL]]]]]. destruct (Nat.eqb_spec dim 2) as [E2|N2].
  - destruct (run_delete B mq p1 t1) as [[p2 t2]|] eqn:ED; [|discriminate]. cbn [rbind fst snd] in H. destruct (is_manifold _ _ _ _); [|discriminate]. cbn [rbind snd] in H.
    assert ((p2, t2) = (p', t')) as EE by (destruct t2; [discriminate|congruence]). injection EE as -> ->. clear H.
    pose proof PA as [A1 A2 A3 A4 A5 A6]. assert (injective_on (b_key B p1) p1) as J by (intros x y; apply MN, A2).
    unfold run_delete in ED. assert (p1 <> []) as NE. { intros ->. unfold delete_boundary_entities, fix_mesh in ED. discriminate. }
    destruct (SO t1) as [S1 S2]. destruct HB as [HK HR]. rewrite E2 in *.
    destruct (delete_spec _ _ _ 2 mq p1 t1 _ (length p1) p' t' HK HR (or_introl eq_refl) A3 S1 S2 A4 ltac:(destruct p1; [congruence|cbn; lia]) ED) as (kept & C & U & KI).
    assert (forall r v, In r kept -> In v r -> (v < length p1)%nat) as V by (intros r v I Iv; apply KI in I; destruct I as (e & L & -> & _); apply A4; exists (nth e t1 []); split; [apply nth_In, L|exact Iv]).
    split.
    + apply (part_trans 2 _ (fun _ => True) p t p1 t1); [exact PA|]. apply (part_of_clean 2 p1 t1 A1 A3 A4 (b_key B p1) kept); [exact C|exact J|exact U|].
      intros r I. apply KI in I. destruct I as (e & L & -> & _). eauto.
    + intros e L N QU. destruct (FW e L N) as (r & I & P). destruct (In_nth t1 r [] I) as (i & Li & Er). destruct (clean_cells _ _ _ _ _ C J V) as (_ & FW2 & _).
      destruct (FW2 r) as (r2 & I2 & P2); [|exists r2; split; [exact I2|rewrite P2; exact P]]. apply KI. exists i. split; [exact Li|]. split; [congruence|]. intros [_ (q & EQ & LQ)].
      destruct QU as [F|QU]; [discriminate|]. rewrite Er in EQ. fold (corner_points p1 r) in EQ.
      pose proof (overlap_points 2 p t _ e OM L) as [LP FP]. unfold pts_of in LP, FP. fold (corner_points p (nth e t [])) in LP, FP.
      destruct (corner_points p (nth e t [])) as [|c1 [|c2 [|c3 [|c4 cl]]]] eqn:EC; try discriminate. inversion FP as [|? ? L1 F1]; subst. inversion F1 as [|? ? L2 F2]; subst. inversion F2 as [|? ? L3 F3]; subst.
      rewrite (qual_perm c1 c2 c3 _ ltac:(congruence) ltac:(congruence) P) in EQ. specialize (QU q EQ). lra.
  - cbn [rbind snd] in H. assert ((p1, t1) = (p', t')) as EE by (destruct t1; [discriminate|congruence]). injection EE as -> ->. split; [exact PA|]. intros e L N _. apply FW; assumption.
Qed.
End Main.

(** What the linter returns: cells of the input that lose against no other cell; all of them in 3D, in 2D all those of quality at least
    min_qual; and a second check finds nothing. *)
Theorem C92_linter : forall B dim mq p t p' t', good_backend B -> sorts B -> overlap_mesh dim p t (b_ve B t) -> NoDup p -> merges_nothing B p ->
  linter B dim mq p t = Ok (p', t') ->
  (forall r', In r' t' -> exists e, (e < length t)%nat /\ ~ loses dim p t e /\ Permutation (corner_points p' r') (corner_points p (nth e t []))) /\
  (forall e, (e < length t)%nat -> ~ loses dim p t e -> (dim = 3%nat \/ forall q, simp_qual (corner_points p (nth e t [])) = Some q -> mq <= q) ->
     exists r', In r' t' /\ Permutation (corner_points p' r') (corner_points p (nth e t []))) /\
  (forall ve, Permutation ve (ve_pairs t') -> ascending (map fst ve) -> do_any_overlap dim p' t' ve = []).
Proof.
  intros B dim mq p t p' t' HB SO OM ND MN OK. destruct (result B dim mq p t p' t' HB SO OM ND MN OK) as [PA FW]. split; [apply (pa_cells _ _ _ _ _ _ PA)|]. split; [exact FW|].
  intros ve PV AV. destruct (do_any_overlap dim p' t' ve) as [|[i j] l] eqn:E; [reflexivity|]. exfalso. pose proof OM as [D [PV0 [AV0 [SX [US PL]]]]].
  assert (overlap_mesh dim p' t' ve) as OM'.
  { split; [exact D|]. split; [exact PV|]. split; [exact AV|]. split; [apply (pa_simplex _ _ _ _ _ _ PA)|]. split; [apply (pa_used _ _ _ _ _ _ PA)|]. intros q I. apply PL, (pa_from _ _ _ _ _ _ PA), I. }
  assert (In (i, j) (do_any_overlap dim p' t' ve)) as I by (rewrite E; left; reflexivity). apply (reported_pairs _ _ _ _ _ _ OM') in I. destruct I as (Li & Lj & NE & CI).
  destruct (pa_cells _ _ _ _ _ _ PA (nth i t' []) ltac:(apply nth_In, Li)) as (e & Le & Ne & Pe). destruct (pa_cells _ _ _ _ _ _ PA (nth j t' []) ltac:(apply nth_In, Lj)) as (f & Lf & Nf & Pf).
  assert (e <> f) as NEF. { intros ->. apply NE. exact (part_same dim p t p' t' _ i j f PA Li Lj Pe Pf). }
  apply (centre_in_moves dim p t ND SX US p' (nth i t' []) (nth j t' []) e f Le Lf Pe Pf) in CI; [|intros v Iv; apply (pa_used _ _ _ _ _ _ PA); exists (nth i t' []); split; [apply nth_In, Li|exact Iv]].
  destruct (argmin_cases (simp_qual (corner_points p (nth e t []))) (simp_qual (corner_points p (nth f t [])))) as [[_ L]|[_ L]].
  - apply Ne. exists f. split; [exact Lf|]. split; [congruence|]. left. split; [exact CI|exact L].
  - apply Nf. exists e. split; [exact Le|]. split; [congruence|]. right. split; [exact CI|exact L].
Qed.
Print Assumptions C92_linter.
(** in 3D it returns exactly if some cell loses against no other *)
Theorem C92_returns_3d : forall B mq p t, good_backend B -> sorts B -> overlap_mesh 3 p t (b_ve B t) -> NoDup p -> merges_nothing B p ->
  ((exists out, linter B 3 mq p t = Ok out) <-> exists e, (e < length t)%nat /\ ~ loses 3 p t e).
Proof.
  intros B mq p t HB SO OM ND MN. split.
  - intros [[p' t'] OK]. destruct (C92_linter B 3 mq p t p' t' HB SO OM ND MN OK) as [A _]. destruct (linter_fix B 3 mq p t p' t' OK) as [NE _]. destruct t' as [|r t']; [congruence|].
    destruct (A r (or_introl eq_refl)) as (e & L & N & _). eauto.
  - intros (e & L & N). unfold linter. cbn [Nat.eqb]. destruct OM as [D [PV [AV [SX [US PL]]]]] eqn:EO.
    assert (p <> []) as NE. { assert (In (nth e t []) t) as I by (apply nth_In, L). destruct (SX _ I) as [LE _]. destruct (nth e t []) as [|v r] eqn:EV; [discriminate|]. intros ->.
      assert (v < length (@nil (list R)))%nat as K by (apply US; exists (v :: r); split; [rewrite <- EV; apply nth_In, L|left; reflexivity]). cbn in K. lia. }
    assert (exists p1 t1, run_fix B p (drop_rows (lint_delete p t (do_any_overlap 3 p t (b_ve B t))) t) = Ok (p1, t1)) as (p1 & t1 & E).
    { unfold run_fix. destruct (fix_mesh_total (b_uniqK B) (b_uniqR B) (b_key B p) p (drop_rows (lint_delete p t (do_any_overlap 3 p t (b_ve B t))) t)) with (del := true) (ori := true) as (p1 & t1 & jx & E1); [|exact NE|].
      - apply valid_rows_spec. intros r v I Iv. apply drop_rows_in in I. apply US. eauto.
      - exists p1, t1. rewrite E1. reflexivity. }
    rewrite E. cbn [rbind snd]. destruct (first_stage B 3 p t HB OM ND MN p1 t1 E) as [_ FW]. destruct (FW e L N) as (r & I & _). destruct t1 as [|x t1]; [destruct I|]. eexists. reflexivity.
Qed.
Print Assumptions C92_returns_3d.
(** two cells of equal quality that contain each other's centre: both are deleted *)
Theorem C92_ties_delete_both : forall B dim mq p t p' t' i j, good_backend B -> sorts B -> overlap_mesh dim p t (b_ve B t) -> NoDup p -> merges_nothing B p ->
  linter B dim mq p t = Ok (p', t') -> (forall a b, (a < length t)%nat -> (b < length t)%nat -> a <> b -> ~ Permutation (nth a t []) (nth b t [])) ->
  (i < length t)%nat -> (j < length t)%nat -> i <> j -> centre_in dim p (nth i t []) (nth j t []) -> centre_in dim p (nth j t []) (nth i t []) ->
  simp_qual (corner_points p (nth i t [])) = simp_qual (corner_points p (nth j t [])) ->
  forall r', In r' t' -> ~ Permutation (corner_points p' r') (corner_points p (nth i t [])) /\ ~ Permutation (corner_points p' r') (corner_points p (nth j t [])).
Proof.
  intros B dim mq p t p' t' i j HB SO OM ND MN OK DI Li Lj N C1 C2 EQ r' I. destruct (C92_linter B dim mq p t p' t' HB SO OM ND MN OK) as [A _]. destruct (A r' I) as (e & Le & NL & P).
  assert (forall a, ~ lower a a) as IR by (intros [x|]; cbn; [lra|tauto]).
  assert (forall a, (a < length t)%nat -> loses dim p t a -> ~ Permutation (corner_points p' r') (corner_points p (nth a t []))) as G.
  { intros a La LO P'. assert (a = e) as -> ; [|contradiction]. destruct (Nat.eq_dec a e) as [E|NE]; [exact E|]. exfalso. apply (DI a e La Le NE).
    assert (Permutation (corner_points p (nth a t [])) (corner_points p (nth e t []))) as PP by (rewrite <- P'; exact P). unfold corner_points in PP.
    apply (perm_map_inj (fun v => nth v p [])) in PP; [exact PP|]. destruct OM as [_ [_ [_ [_ [US _]]]]]. intros x y Ix Iy E. apply (proj1 (NoDup_nth p []) ND) in E; [exact E| |]; apply US.
    - exists (nth a t []). split; [apply nth_In, La|exact Ix].
    - exists (nth e t []). split; [apply nth_In, Le|exact Iy]. }
  split; apply G; try assumption.
  - exists j. split; [exact Lj|]. split; [congruence|]. left. split; [exact C1|]. rewrite EQ. apply IR.
  - exists i. split; [exact Li|]. split; [congruence|]. left. split; [exact C2|]. rewrite EQ. apply IR.
Qed.
Print Assumptions C92_ties_delete_both.

(** The check runs on the joined mesh of all ranks (in 3D before equal vertices are merged): it never compares cells of different ranks. *)
Theorem C92_ranks_not_compared : forall dim size m ve i j, (forall r c v, (r < size)%nat -> In c (snd (m r)) -> In v c -> (v < length (fst (m r)))%nat) ->
  overlap_mesh dim (fst (Lockstep.joined size m)) (snd (Lockstep.joined size m)) ve ->
  In (i, j) (do_any_overlap dim (fst (Lockstep.joined size m)) (snd (Lockstep.joined size m)) ve) ->
  exists r, (r < size)%nat /\ forall v, In v (nth i (snd (Lockstep.joined size m)) []) \/ In v (nth j (snd (Lockstep.joined size m)) []) ->
    (number_before m r <= v < number_before m (S r))%nat.
Proof.
  intros dim size m ve i j V OM I. apply (reported_pairs _ _ _ _ _ _ OM) in I. destruct I as (Li & Lj & _ & ((v & Iv & Jv) & _)).
  assert (forall i, (i < length (snd (Lockstep.joined size m)))%nat -> exists r, (r < size)%nat /\ forall v, In v (nth i (snd (Lockstep.joined size m)) []) -> (number_before m r <= v < number_before m (S r))%nat) as G.
  { clear - V. intros i L. apply (nth_In _ []) in L. cbn [Lockstep.joined snd] in L. apply in_block in L. destruct L as (r & Lr & I). exists r. split; [exact Lr|]. intros v Iv.
    apply in_map_iff in I. destruct I as (c & E & Ic). cbn [Lockstep.joined snd] in Iv. rewrite <- E in Iv. apply in_map_iff in Iv. destruct Iv as (w & <- & Iw). pose proof (V r c w Lr Ic Iw) as Lw.
    unfold number_before. rewrite seq_S, map_app, list_sum_app. cbn [map list_sum fold_right Nat.add]. lia. }
  destruct (G i Li) as (r & Lr & Hr). destruct (G j Lj) as (r' & Lr' & Hr'). pose proof (Hr v Iv) as B1. pose proof (Hr' v Jv) as B2.
  assert (forall a b, (a <= b)%nat -> (number_before m a <= number_before m b)%nat) as MO.
  { intros a b L. induction L as [|b L IH]; [lia|]. unfold number_before in *. rewrite seq_S, map_app, list_sum_app. lia. }
  assert (r = r') as ->. { destruct (Nat.lt_trichotomy r r') as [L|[E|L]]; [|exact E|]; [pose proof (MO (S r) r' L)|pose proof (MO (S r') r L)]; lia. }
  exists r'. split; [exact Lr|]. intros w [H|H]; [apply Hr, H|apply Hr', H].
Qed.
Print Assumptions C92_ranks_not_compared.

(** ---- a concrete case: two mirrored tetrahedra on one edge and apex, and a third one below; only the third is left ---- *)
Fixpoint ins_pair (x : nat * nat) (l : list (nat * nat)) : list (nat * nat) :=
  match l with [] => [x] | y :: l' => if (fst x <=? fst y)%nat then x :: l else y :: ins_pair x l' end.
Definition sort_pairs (l : list (nat * nat)) : list (nat * nat) := fold_right ins_pair [] l.
Lemma ins_pair_perm x l : Permutation (ins_pair x l) (x :: l).
Proof. induction l as [|y l IH]; cbn [ins_pair]; [reflexivity|]. destruct (fst x <=? fst y)%nat; [reflexivity|]. rewrite IH. apply perm_swap. Qed.
Lemma sort_pairs_perm l : Permutation (sort_pairs l) l.
Proof. induction l as [|x l IH]; cbn; [reflexivity|]. fold (sort_pairs l). rewrite ins_pair_perm, IH. reflexivity. Qed.
Lemma ins_pair_asc x l : ascending (map fst l) -> ascending (map fst (ins_pair x l)).
Proof.
  induction l as [|y l IH]; cbn [ins_pair]; [intros _; exact I|]. destruct (Nat.leb_spec (fst x) (fst y)) as [L|L]; intros A; [split; [exact L|exact A]|].
  destruct l as [|z l]; cbn [ins_pair map] in *; [split; [lia|exact I]|]. destruct A as [A1 A2]. specialize (IH A2). destruct (fst x <=? fst z)%nat; cbn [map] in *; (split; [lia|exact IH]).
Qed.
Lemma sort_pairs_asc l : ascending (map fst (sort_pairs l)).
Proof. induction l as [|x l IH]; cbn; [exact I|]. apply ins_pair_asc, IH. Qed.
Definition dp : list (list R) := [[0;0;0];[6;0;0];[2;5;0];[4;5;0];[3;2;6];[-1;0;0];[0;-1;0];[0;0;-1]].
Definition dt : list row := [[0;1;2;4];[1;0;3;4];[0;5;6;7]]%nat.
Definition same_pt (x y : list R) : bool := if list_eq_dec Req_EM_T x y then true else false.
Definition lint_backend : backend :=
  mkBackend (fun _ p => (p, [])) (nodup key_dec) (nodup row_dec) (fun _ x => [Z.of_nat (find_pos (same_pt x) dp)]) (fun t => sort_pairs (ve_pairs t)) (fun p _ => p) (fun n => repeat 0 n).
Lemma lint_backend_good : good_backend lint_backend /\ sorts lint_backend.
Proof. split; [split; apply nodup_uniq_ok|]. intros t. split; [apply sort_pairs_perm|apply sort_pairs_asc]. Qed.
Lemma find_pos_same x l : In x l -> nth (find_pos (same_pt x) l) l [] = x.
Proof.
  induction l as [|y l IH]; intros I; [destruct I|]. cbn [find_pos]. unfold same_pt at 1. destruct (list_eq_dec Req_EM_T x y) as [-> |N]; [reflexivity|]. cbn [nth]. apply IH. destruct I; [congruence|assumption].
Qed.
Lemma lint_merges_nothing : merges_nothing lint_backend dp.
Proof.
  intros q x y S Ix Iy E. assert (find_pos (same_pt x) dp = find_pos (same_pt y) dp) as F. { change ([Z.of_nat (find_pos (same_pt x) dp)] = [Z.of_nat (find_pos (same_pt y) dp)]) in E. apply Nat2Z.inj. congruence. }
  apply S in Ix, Iy. rewrite <- (find_pos_same x dp Ix), F. apply find_pos_same, Iy.
Qed.
Lemma dp_nodup : NoDup dp.
Proof. unfold dp. repeat (apply NoDup_cons; [cbn; intros H; repeat (destruct H as [H|H]; [inversion H; lra|]); destruct H|]). apply NoDup_nil. Qed.
Lemma d_mesh : overlap_mesh 3 dp dt (b_ve lint_backend dt).
Proof.
  split; [right; reflexivity|]. destruct lint_backend_good as [_ SO]. destruct (SO dt) as [A B]. split; [exact A|]. split; [exact B|]. split.
  { intros r H. cbn in H. repeat (destruct H as [<- | H]; [split; [reflexivity|repeat (apply NoDup_cons; [cbn; lia|]); apply NoDup_nil]|]). destruct H. }
  split.
  - intros v. change (length dp) with 8%nat. split.
    + intros H. do 8 (destruct v as [|v]; [first [exists [0;1;2;4]%nat; cbn; tauto|exists [1;0;3;4]%nat; cbn; tauto|exists [0;5;6;7]%nat; cbn; tauto]|]). lia.
    + intros [r [Hr Hv]]. cbn in Hr. repeat (destruct Hr as [<- | Hr]; [cbn in Hv; lia|]). destruct Hr.
  - intros q H. cbn in H. repeat (destruct H as [<- | H]; [reflexivity|]). destruct H.
Qed.
Lemma third_stays : ~ loses 3 dp dt 2.
Proof.
  intros (f & Lf & N & H). cbn [length dt] in Lf. assert (f = 0 \/ f = 1)%nat as F by lia. clear Lf N. cbv zeta in H. unfold centre_in in H. cbn [Nat.eqb dt nth] in H. unfold in_open_hull in H.
  destruct F as [-> | ->]; cbn [nth corner_points map dp] in H; rewrite !in_hull4 in H; unfold centre in H;
    destruct H as [[[_ [_ (a & b & c & e & Ha & Hb & Hc & He & T & E)]] _]|[[_ [_ (a & b & c & e & Ha & Hb & Hc & He & T & E)]] _]]; cbn in E; inversion E; lra.
Qed.
Lemma mirrored : centre_in 3 dp (nth 0 dt []) (nth 1 dt []) /\ centre_in 3 dp (nth 1 dt []) (nth 0 dt []) /\
  simp_qual (corner_points dp (nth 0 dt [])) = simp_qual (corner_points dp (nth 1 dt [])).
Proof.
  unfold centre_in. cbn [Nat.eqb dt nth]. unfold in_open_hull. cbn [corner_points map dp nth]. split; [|split].
  - split; [exists 0%nat; cbn; tauto|]. split; [cbn; lra|]. apply in_hull4. exists (1/6), (1/3), (1/4), (1/4). repeat split; try lra. unfold centre. cbn. f_equal; [|f_equal; [|f_equal]]; lra.
  - split; [exists 0%nat; cbn; tauto|]. split; [cbn; lra|]. apply in_hull4. exists (1/6), (1/3), (1/4), (1/4). repeat split; try lra. unfold centre. cbn. f_equal; [|f_equal; [|f_equal]]; lra.
  - rewrite !simp_qual_sides by reflexivity. unfold Geom.edist. cbn [Geom.sqdist].
    replace ((6 - 0) ^ 2 + ((0 - 0) ^ 2 + ((0 - 0) ^ 2 + 0))) with ((0 - 6) ^ 2 + ((0 - 0) ^ 2 + ((0 - 0) ^ 2 + 0))) by ring.
    replace ((2 - 0) ^ 2 + ((5 - 0) ^ 2 + ((0 - 0) ^ 2 + 0))) with ((4 - 6) ^ 2 + ((5 - 0) ^ 2 + ((0 - 0) ^ 2 + 0))) by ring.
    replace ((2 - 6) ^ 2 + ((5 - 0) ^ 2 + ((0 - 0) ^ 2 + 0))) with ((4 - 0) ^ 2 + ((5 - 0) ^ 2 + ((0 - 0) ^ 2 + 0))) by ring. reflexivity.
Qed.
Example C92_case : exists p' t', linter lint_backend 3 (1/10) dp dt = Ok (p', t') /\ good_backend lint_backend /\ sorts lint_backend /\
  overlap_mesh 3 dp dt (b_ve lint_backend dt) /\ NoDup dp /\ merges_nothing lint_backend dp /\
  centre_in 3 dp (nth 0 dt []) (nth 1 dt []) /\ centre_in 3 dp (nth 1 dt []) (nth 0 dt []) /\
  forall r', In r' t' -> Permutation (corner_points p' r') (corner_points dp (nth 2 dt [])).
Proof.
  destruct lint_backend_good as [HB SO].
  destruct (proj2 (C92_returns_3d lint_backend (1/10) dp dt HB SO d_mesh dp_nodup lint_merges_nothing)) as [[p' t'] OK]; [exists 2%nat; split; [cbn; lia|exact third_stays]|].
  exists p', t'. repeat (split; [first [exact OK|exact HB|exact SO|exact d_mesh|exact dp_nodup|exact lint_merges_nothing|apply mirrored]|]).
  assert (forall a b, (a < length dt)%nat -> (b < length dt)%nat -> a <> b -> ~ Permutation (nth a dt []) (nth b dt [])) as DI.
  { intros a b La Lb N P. cbn [length dt] in La, Lb. assert (In 2 (nth a dt []) <-> In 2 (nth b dt []))%nat as P1 by (split; apply Permutation_in; [exact P|symmetry; exact P]).
    assert (In 3 (nth a dt []) <-> In 3 (nth b dt []))%nat as P2 by (split; apply Permutation_in; [exact P|symmetry; exact P]).
    destruct a as [|[|[|a]]]; try lia; destruct b as [|[|[|b]]]; try lia; cbn in P1, P2; lia. }
  intros r' I. destruct (C92_linter _ _ _ _ _ _ _ HB SO d_mesh dp_nodup lint_merges_nothing OK) as [A _]. destruct (A r' I) as (e & Le & _ & P).
  destruct (C92_ties_delete_both _ _ _ _ _ _ _ 0%nat 1%nat HB SO d_mesh dp_nodup lint_merges_nothing OK DI ltac:(cbn; lia) ltac:(cbn; lia) ltac:(lia) (proj1 mirrored) (proj1 (proj2 mirrored)) (proj2 (proj2 mirrored)) r' I) as [N0 N1].
  cbn [length dt] in Le. destruct e as [|[|[|e]]]; [contradiction|contradiction|exact P|lia].
Qed.

(** two ranks with one and the same tetrahedron: nothing is reported *)
Definition one_tet : list pt * list row := ([[0;0;0];[1;0;0];[0;1;0];[0;0;1]], [[0;1;2;3]%nat]).
Example C92_case_ranks : let J := Lockstep.joined 2 (fun _ => one_tet) in
  snd J = [[0;1;2;3];[4;5;6;7]]%nat /\ corner_points (fst J) (nth 0 (snd J) []) = corner_points (fst J) (nth 1 (snd J) []) /\
  overlap_mesh 3 (fst J) (snd J) (sort_pairs (ve_pairs (snd J))) /\ do_any_overlap 3 (fst J) (snd J) (sort_pairs (ve_pairs (snd J))) = [].
Proof.
  cbv zeta. assert (snd (Lockstep.joined 2 (fun _ => one_tet)) = [[0;1;2;3];[4;5;6;7]]%nat) as E by reflexivity. split; [exact E|]. split; [reflexivity|].
  assert (overlap_mesh 3 (fst (Lockstep.joined 2 (fun _ => one_tet))) (snd (Lockstep.joined 2 (fun _ => one_tet))) (sort_pairs (ve_pairs (snd (Lockstep.joined 2 (fun _ => one_tet)))))) as OM.
  { split; [right; reflexivity|]. split; [apply sort_pairs_perm|]. split; [apply sort_pairs_asc|]. rewrite E. split.
    { intros r H. cbn in H. repeat (destruct H as [<- | H]; [split; [reflexivity|repeat (apply NoDup_cons; [cbn; lia|]); apply NoDup_nil]|]). destruct H. }
    split.
    - intros v. change (length (fst (Lockstep.joined 2 (fun _ => one_tet)))) with 8%nat. split.
      + intros H. do 8 (destruct v as [|v]; [first [exists [0;1;2;3]%nat; cbn; tauto|exists [4;5;6;7]%nat; cbn; tauto]|]). lia.
      + intros [r [Hr Hv]]. cbn in Hr. repeat (destruct Hr as [<- | Hr]; [cbn in Hv; lia|]). destruct Hr.
    - intros q H. cbn in H. repeat (destruct H as [<- | H]; [reflexivity|]). destruct H. }
  split; [exact OM|]. destruct (do_any_overlap 3 _ _ _) as [|[i j] l] eqn:EO; [reflexivity|]. exfalso.
  assert (In (i, j) (do_any_overlap 3 (fst (Lockstep.joined 2 (fun _ => one_tet))) (snd (Lockstep.joined 2 (fun _ => one_tet))) (sort_pairs (ve_pairs (snd (Lockstep.joined 2 (fun _ => one_tet))))))) as I by (rewrite EO; left; reflexivity).
  pose proof (proj1 (reported_pairs _ _ _ _ _ _ OM) I) as (Li & Lj & N & ((v & I1 & I2) & _)). rewrite E in *. cbn [length] in Li, Lj.
  destruct i as [|[|i]]; [destruct j as [|[|j]]; [lia| |lia]|destruct j as [|[|j]]; [|lia|lia]|lia]; cbn in I1, I2; lia.
Qed.
