(** The meshing loop: number of triangulations, termination, and what a successful run returns. *)
From Coq Require Import Reals List Arith Bool Lra Lia Permutation.
From Verif Require Import Model.Base Model.SDF Model.Mesh Model.Formulas Model.Forces Model.Newton Model.Dihedral Model.Generator.
From Verif Require Import Proofs.ListAux Proofs.MeshAux Proofs.FixMeshProofs Proofs.DeleteProofs Proofs.NewtonProofs.
Import ListNotations.
Local Open Scope R_scope.

Section Loop.
Variables (B : backend) (P : problem).

Lemma loop_ok fuel : forall count p out k, mesh_loop B P fuel count p = Some (Ok out, k) ->
  (count < k)%nat /\ g_max_iter P = INR k /\ exists p1 t1, finish B P p1 t1 = Ok out.
Proof.
  induction fuel as [|fuel IH]; intros count p out k H; [discriminate|]. cbn [mesh_loop] in H.
  destruct (b_tri B count p) as [p1 t0]. destruct p1 as [|x p1]; [discriminate|]. 
  destruct (Reqb (INR count) (g_max_iter P - 1)) eqn:E.
  - assert (S count = k) as <- by congruence. assert (finish B P (x :: p1) (remove_outside (g_dim P) (g_fd P) (g_geps P) (x :: p1) t0) = Ok out) as H1 by congruence.
    apply Reqb_true in E. split; [lia|]. split; [rewrite S_INR; lra|]. do 2 eexists. exact H1.
  - match type of H with (if ?b then _ else _) = _ => destruct b end; [|discriminate]. apply IH in H. destruct H as (L & M & F). split; [lia|]. split; assumption.
Qed.
Lemma loop_total n : g_max_iter P = INR n -> forall fuel count p, (count < n)%nat -> (n - count <= fuel)%nat ->
  exists r k, mesh_loop B P fuel count p = Some (r, k) /\ (count < k <= n)%nat.
Proof.
  intros M. induction fuel as [|fuel IH]; intros count p L F; [lia|]. cbn [mesh_loop].
  destruct (b_tri B count p) as [p1 t0]. destruct p1 as [|x p1]; [do 2 eexists; split; [reflexivity|lia]|].
  destruct (Reqb (INR count) (g_max_iter P - 1)) eqn:E; [do 2 eexists; split; [reflexivity|lia]|].
  match goal with |- exists r k, (if ?b then _ else _) = _ /\ _ => destruct b end; [|do 2 eexists; split; [reflexivity|lia]].
  assert (S count < n)%nat as L'.
  { apply Reqb_false in E. destruct (Nat.eq_dec (S count) n) as [Q|Q]; [|lia]. exfalso. apply E. rewrite M, <- Q, S_INR. lra. }
  edestruct IH as (r & k & E1 & E2); [exact L'|lia|]. exists r, k. split; [exact E1|lia].
Qed.
Lemma loop_more fuel : forall count p r, mesh_loop B P fuel count p = Some r -> mesh_loop B P (S fuel) count p = Some r.
Proof.
  induction fuel as [|fuel IH]; intros count p r H; [discriminate|]. cbn [mesh_loop] in H. remember (S fuel) as f eqn:Ef. cbn [mesh_loop].
  destruct (b_tri B count p) as [p1 t0]. destruct p1 as [|x p1]; [exact H|].
  destruct (Reqb (INR count) (g_max_iter P - 1)); [exact H|].
  match goal with |- (if ?b then _ else _) = _ => destruct b end; [|exact H]. subst f. apply IH, H.
Qed.
End Loop.

(** ---- what fix_mesh and the steps after it give ---- *)
(** a mesh with live, pairwise different rows in which every vertex is used *)
Definition tidy (p : list (list R)) (t : list row) : Prop :=
  (forall r v, In r t -> In v r -> (v < length p)%nat) /\
  (forall i j, (i < length t)%nat -> (j < length t)%nat -> i <> j -> ~ Permutation (nth i t []) (nth j t [])) /\
  (forall v, (v < length p)%nat -> exists r, In r t /\ In v r).
Definition good_backend (B : backend) : Prop := uniq_ok (b_uniqK B) /\ uniq_ok (b_uniqR B).

(** rows of a mesh have n corners *)
Definition wide (n : nat) (t : list row) : Prop := forall r, In r t -> length r = n.

Section Steps.
Variable B : backend.
Hypothesis HB : good_backend B.

Lemma run_fix_tidy p t p' t' : run_fix B p t = Ok (p', t') -> tidy p' t'.
Proof.
  unfold run_fix. destruct (fix_mesh _ _ _ _ _ _ _) as [[[p1 t1] jx]|] eqn:E; [|discriminate]. intros H. inversion H; subst.
  destruct HB as [HK HR]. destruct (fix_mesh_clean _ _ _ HK HR _ _ (fix_mesh_valid _ _ _ _ _ _ _ _ E) _ _ _ _ _ E) as [[A C D F G I] U].
  split; [exact A|]. split; [exact I|]. apply U. reflexivity.
Qed.
Lemma run_fix_wide n p t p' t' : run_fix B p t = Ok (p', t') -> wide n t -> wide n t'.
Proof.
  unfold run_fix. destruct (fix_mesh _ _ _ _ _ _ _) as [[[p1 t1] jx]|] eqn:E; [|discriminate]. intros H W. inversion H; subst.
  destruct HB as [HK HR]. destruct (fix_mesh_clean _ _ _ HK HR _ _ (fix_mesh_valid _ _ _ _ _ _ _ _ E) _ _ _ _ _ E) as [[A C D F G I] U].
  intros r' I'. destruct (G r' I') as (r & Ir & PM). apply Permutation_length in PM. unfold row_keys in PM. rewrite !map_length in PM. rewrite PM. apply W, Ir.
Qed.
Lemma run_fix_from p t p' t' : run_fix B p t = Ok (p', t') -> forall q, In q p' -> In q p.
Proof.
  unfold run_fix. destruct (fix_mesh _ _ _ _ _ _ _) as [[[p1 t1] jx]|] eqn:E; [|discriminate]. intros H. inversion H; subst.
  destruct HB as [HK HR]. destruct (fix_mesh_clean _ _ _ HK HR _ _ (fix_mesh_valid _ _ _ _ _ _ _ _ E) _ _ _ _ _ E) as [[A C D F G I] U]. exact C.
Qed.
Lemma run_delete_fix mq p t p' t' : run_delete B mq p t = Ok (p', t') ->
  run_fix B p (kept_rows (entity_qual p t) mq (get_boundary_entities (b_uniqR B) 2 t (b_ve B t)) t) = Ok (p', t').
Proof. unfold run_delete, delete_boundary_entities, run_fix. intros H. exact H. Qed.
Lemma kept_rows_in q mq be t r : In r (kept_rows q mq be t) -> In r t.
Proof.
  unfold kept_rows. intros H. apply in_map_iff in H. destruct H as (e & <- & I). apply filter_In in I. destruct I as [I _]. apply in_seq in I. apply nth_In. lia.
Qed.
Lemma drop_rows_in del t r : In r (drop_rows del t) -> In r t.
Proof.
  unfold drop_rows. intros H. apply in_map_iff in H. destruct H as (e & <- & I). apply filter_In in I. destruct I as [I _]. apply in_seq in I. apply nth_In. lia.
Qed.
Lemma linter_fix dim mq p t p' t' : linter B dim mq p t = Ok (p', t') -> t' <> [] /\ exists p0 t0, run_fix B p0 t0 = Ok (p', t').
Proof.
  unfold linter. destruct (run_fix B p _) as [[p1 t1]|] eqn:E1; [|discriminate]. cbn [rbind fst snd]. destruct (dim =? 2)%nat.
  - destruct (run_delete B mq p1 t1) as [[p2 t2]|] eqn:E2; [|discriminate]. cbn [rbind fst snd]. destruct (is_manifold _ _ _ _); [|discriminate]. cbn [rbind snd].
    destruct t2 eqn:Q; [discriminate|]. intros H. inversion H; subst. split; [discriminate|]. apply run_delete_fix in E2. eauto.
  - cbn [rbind snd]. destruct t1 eqn:Q; [discriminate|]. intros H. inversion H; subst. split; [discriminate|]. eauto.
Qed.
Lemma linter_wide n dim mq p t p' t' : linter B dim mq p t = Ok (p', t') -> wide n t -> wide n t'.
Proof.
  unfold linter. intros H W. destruct (run_fix B p _) as [[p1 t1]|] eqn:E1; [|discriminate]. cbn [rbind fst snd] in H.
  assert (wide n t1) as W1 by (eapply run_fix_wide; [exact E1|intros r I; apply W; eapply drop_rows_in, I]).
  destruct (dim =? 2)%nat.
  - destruct (run_delete B mq p1 t1) as [[p2 t2]|] eqn:E2; [|discriminate]. cbn [rbind fst snd] in H. destruct (is_manifold _ _ _ _); [|discriminate]. cbn [rbind snd] in H.
    assert (wide n t2) as W2 by (eapply run_fix_wide; [exact (run_delete_fix _ _ _ _ _ E2)|intros r I; apply W1; eapply kept_rows_in, I]).
    destruct t2 eqn:Q; [discriminate|]. inversion H; subst. exact W2.
  - cbn [rbind snd] in H. destruct t1 eqn:Q; [discriminate|]. inversion H; subst. exact W1.
Qed.
Lemma termination_tidy dim sm ch p t p' t' : termination B dim sm ch p t = Ok (p', t') -> tidy p' t'.
Proof.
  unfold termination. match goal with |- rbind ?x _ = _ -> _ => destruct x as [[p3 t3]|] end; [|discriminate]. cbn [rbind fst snd]. destruct ch.
  - intros H. apply linter_fix in H. destruct H as (_ & p0 & t0 & H). eapply run_fix_tidy, H.
  - apply run_fix_tidy.
Qed.
Lemma termination_wide n dim sm ch p t p' t' : termination B dim sm ch p t = Ok (p', t') -> wide n t -> wide n t'.
Proof.
  unfold termination. intros H W. match type of H with rbind ?x _ = _ => destruct x as [[p3 t3]|] eqn:E end; [|discriminate]. cbn [rbind fst snd] in H.
  assert (wide n t3) as W3.
  { destruct (dim =? 2)%nat; [|inversion E; subst; exact W].
    destruct (run_fix B p t) as [[p1 t1]|] eqn:E1; [|discriminate]. cbn [rbind fst snd] in E. destruct (run_delete B _ p1 t1) as [[p2 t2]|] eqn:E2; [|discriminate].
    cbn [rbind fst snd] in E. assert (wide n t1) as W1 by (eapply run_fix_wide; eassumption).
    assert (wide n t2) as W2 by (eapply run_fix_wide; [exact (run_delete_fix _ _ _ _ _ E2)|intros r I; apply W1; eapply kept_rows_in, I]).
    destruct sm; inversion E; subst; exact W2. }
  destruct ch; [eapply linter_wide; eassumption|eapply run_fix_wide; eassumption].
Qed.

(** the result of the last iteration *)
Lemma finish_spec P p t p' t' : finish B P p t = Ok (p', t') ->
  (forall r v, In r t' -> In v r -> (v < length p')%nat) /\
  (forall i j, (i < length t')%nat -> (j < length t')%nat -> i <> j -> ~ Permutation (nth i t' []) (nth j t' [])) /\
  (forall r, In r t' -> g_fd P (centroid (g_dim P) (pts_of p' r)) < - (g_h0 P * (1 / 1000))) /\
  (forall n, wide n t -> wide n t').
Proof.
  unfold finish. destruct (termination B _ _ _ p t) as [[p1 t1]|] eqn:E; [|discriminate]. cbn [rbind fst snd].
  destruct (improve_level_set _ _ _ _ p1 t1) as [p2|] eqn:E2; [|discriminate]. cbn [rbind]. intros H. inversion H; subst.
  destruct (termination_tidy _ _ _ _ _ _ _ E) as (T1 & T2 & _).
  assert (length p' = length p1) as L.
  { unfold improve_level_set in E2. destruct (get_boundary_vertices _ _ _) as [|b bid]; [discriminate|]. inversion E2.
    apply (improve_loop_spec (g_fd P) (g_deps P) (b :: bid) (seq 0 5) 1 p1). }
  unfold remove_outside. split; [|split; [|split]].
  - intros r v I1 I2. apply filter_In in I1. rewrite L. eapply T1; [apply I1|exact I2].
  - assert (forall (f : row -> bool) (l : list row), (forall i j, (i < length l)%nat -> (j < length l)%nat -> i <> j -> ~ Permutation (nth i l []) (nth j l [])) ->
      forall i j, (i < length (filter f l))%nat -> (j < length (filter f l))%nat -> i <> j -> ~ Permutation (nth i (filter f l) []) (nth j (filter f l) [])) as K.
    { clear. intros f l H. induction l as [|x l IH]; [cbn; intros; lia|].
      assert (forall i j, (i < length l)%nat -> (j < length l)%nat -> i <> j -> ~ Permutation (nth i l []) (nth j l [])) as H'
        by (intros i j Hi Hj N; apply (H (S i) (S j)); cbn; lia). specialize (IH H').
      assert (forall y, In y l -> ~ Permutation x y) as HX.
      { intros y I. destruct (In_nth l y [] I) as (j & Hj & <-). apply (H 0%nat (S j)); cbn; lia. }
      cbn [filter]. destruct (f x); [|exact IH]. intros [|i] [|j] Hi Hj N; cbn [length nth] in *; [lia| | |apply IH; lia].
      - apply HX. eapply (proj1 (filter_In f _ l)), nth_In. lia.
      - intros Q. apply Permutation_sym in Q. revert Q. apply HX. eapply (proj1 (filter_In f _ l)), nth_In. lia. }
    apply K, T2.
  - intros r I. apply filter_In in I. destruct I as [_ I]. apply Rltb_true in I. exact I.
  - intros n W r I. apply filter_In in I. eapply termination_wide; [exact E|exact W|apply I].
Qed.
End Steps.

(** ---- sliver removal ---- *)
Section Sliver.
Variables (B : backend) (S : sliver_problem).
Lemma sliver_ok fuel : forall count step old p out k, sliver_loop B S fuel count step old p = Some (Ok out, k) ->
  (count < k)%nat /\ exists p0 p1 t0, b_tri B (k - 1) p0 = (p1, t0) /\ let t1 := remove_outside 3 (s_fd S) (s_geps S) p1 t0 in
    (s_max_iter S = INR k /\ termination B 3 false (s_checks S) p1 t1 = Ok out \/
     s_max_iter S <> INR k /\ slivers p1 t1 (s_lo S) (s_hi S) = [] /\ run_fix B p1 t1 = Ok out).
Proof.
  induction fuel as [|fuel IH]; intros count step old p out k H; [discriminate|]. cbn [sliver_loop] in H.
  destruct (b_tri B count p) as [p1 t0] eqn:ET. destruct (Reqb (INR count) (s_max_iter S - 1)) eqn:E.
  - injection H as H1 <-. apply Reqb_true in E. split; [lia|]. exists p, p1, t0. split; [rewrite <- ET; f_equal; lia|]. left. split; [rewrite S_INR; lra|exact H1].
  - apply Reqb_false in E. destruct (slivers p1 _ _ _) as [|e sl] eqn:ES.
    + injection H as H1 <-. split; [lia|]. exists p, p1, t0. split; [rewrite <- ET; f_equal; lia|]. right. split; [rewrite S_INR; lra|]. split; [exact ES|exact H1].
    + match type of H with match ?x with Ok _ => _ | Err _ => _ end = _ => destruct x end; [|discriminate]. apply IH in H. destruct H as (L & R). split; [lia|exact R].
Qed.
Lemma sliver_total n : s_max_iter S = INR n -> forall fuel count step old p, (count < n)%nat -> (n - count <= fuel)%nat ->
  exists r k, sliver_loop B S fuel count step old p = Some (r, k) /\ (count < k <= n)%nat.
Proof.
  intros M. induction fuel as [|fuel IH]; intros count step old p L F; [lia|]. cbn [sliver_loop].
  destruct (b_tri B count p) as [p1 t0]. destruct (Reqb (INR count) (s_max_iter S - 1)) eqn:E; [do 2 eexists; split; [reflexivity|lia]|].
  destruct (slivers p1 _ _ _) as [|e sl] eqn:ES; [do 2 eexists; split; [reflexivity|lia]|].
  match goal with |- exists r k, match ?x with Ok _ => _ | Err _ => _ end = _ /\ _ => destruct x end; [|do 2 eexists; split; [reflexivity|lia]].
  assert (Datatypes.S count < n)%nat as L'.
  { apply Reqb_false in E. destruct (Nat.eq_dec (Datatypes.S count) n) as [Q|Q]; [|lia]. exfalso. apply E. rewrite M, <- Q, S_INR. lra. }
  edestruct IH as (r & k & E1 & E2); [exact L'|lia|]. exists r, k. split; [exact E1|lia].
Qed.
Lemma sliver_more fuel : forall count step old p r, sliver_loop B S fuel count step old p = Some r -> sliver_loop B S (Datatypes.S fuel) count step old p = Some r.
Proof.
  induction fuel as [|fuel IH]; intros count step old p r H; [discriminate|]. cbn [sliver_loop] in H. remember (Datatypes.S fuel) as f eqn:Ef. cbn [sliver_loop].
  destruct (b_tri B count p) as [p1 t0]. destruct (Reqb (INR count) (s_max_iter S - 1)); [exact H|].
  destruct (slivers p1 _ _ _) as [|e sl] eqn:ES; [exact H|].
  match goal with |- match ?x with Ok _ => _ | Err _ => _ end = _ => destruct x end; [|exact H]. subst f. apply IH, H.
Qed.
End Sliver.
