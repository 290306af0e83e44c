(** linter *)
From Coq Require Import Reals List Arith Bool ZArith Lia Lra Permutation.
From Verif Require Import Model.Base Model.SDF Model.Simplex Model.Mesh Model.Formulas Model.Generator Spec.MeshTopo Spec.Linear Spec.Lint
  Proofs.ListAux Proofs.MeshAux Proofs.VtoeProofs Proofs.EdgeProofs Proofs.TopoProofs Proofs.FixMeshProofs Proofs.DeleteProofs Proofs.SimplexProofs Proofs.OverlapProofs Proofs.ForceProofs Proofs.GenLoop.
Import ListNotations.
Local Open Scope R_scope.

(** ---- permuted corners ---- *)
Lemma vplus_swap a : forall b c, vplus a (vplus b c) = vplus b (vplus a c).
Proof.
  induction a as [|x a IH]; intros b c; cbn [vplus]; [destruct b; reflexivity|]. destruct b as [|y b]; [reflexivity|]. destruct c as [|z c]; cbn [vplus]; [reflexivity|].
  rewrite IH. f_equal. ring.
Qed.
Lemma comb_perm n s s' : Permutation s s' -> forall w, length w = length s -> exists w', length w' = length s' /\ Permutation w w' /\ combination n w' s' = combination n w s.
Proof.
  intros P. induction P as [|x l l' P IH|x y l|l l' l'' P1 IH1 P2 IH2]; intros w L.
  - destruct w; [|discriminate]. exists []. auto.
  - destruct w as [|a w]; [discriminate|]. destruct (IH w) as (w' & A & B & C); [cbn in L; lia|]. exists (a :: w'). cbn. rewrite C. auto.
  - destruct w as [|a [|b w]]; try discriminate. exists (b :: a :: w). split; [exact L|]. split; [apply perm_swap|]. cbn. apply vplus_swap.
  - destruct (IH1 w L) as (w1 & A & B & C). destruct (IH2 w1 A) as (w2 & A' & B' & C'). exists w2. split; [exact A'|]. split; [etransitivity; eassumption|congruence].
Qed.
Lemma hull_perm n s s' q : Permutation s s' -> in_hull n s q -> in_hull n s' q.
Proof.
  intros P (w & L & F & T & ->). destruct (comb_perm n s s' P w L) as (w' & A & B & C). exists w'. split; [exact A|]. split; [rewrite Forall_forall in *; intros x H; apply F, (Permutation_in _ (Permutation_sym B) H)|].
  split; [rewrite <- T; symmetry; apply total_perm, B|congruence].
Qed.
Lemma open_hull_perm n s s' q : Permutation s s' -> in_open_hull n s q -> in_open_hull n s' q.
Proof.
  intros P (w & L & F & T & ->). destruct (comb_perm n s s' P w L) as (w' & A & B & C). exists w'. split; [exact A|]. split; [rewrite Forall_forall in *; intros x H; apply F, (Permutation_in _ (Permutation_sym B) H)|].
  split; [rewrite <- T; symmetry; apply total_perm, B|congruence].
Qed.
Lemma centre_perm d s s' : length s = S d -> Permutation s s' -> centre d s' = centre d s.
Proof.
  intros L P. destruct (comb_perm d s s' P (repeat (/ INR (S d)) (S d))) as (w' & A & B & C); [rewrite repeat_length, L; reflexivity|]. unfold centre. rewrite <- C. f_equal.
  assert (w' = repeat (/ INR (S d)) (length w')) as E.
  { assert (forall x, In x w' -> x = / INR (S d)) as H by (intros x H; apply (Permutation_in _ (Permutation_sym B)), repeat_spec in H; exact H).
    clear - H. induction w' as [|x w IH]; cbn; [reflexivity|]. f_equal; [apply H; left; reflexivity|apply IH; intros y I; apply H; right; exact I]. }
  rewrite E, <- (Permutation_length B), repeat_length. reflexivity.
Qed.
Lemma vol_perm s s' : Permutation s s' -> simp_vol s <> 0 -> simp_vol s' <> 0.
Proof. intros P N E. apply N. pose proof (abs_vol_perm s s' P) as H. rewrite E, Rabs_R0 in H. destruct (Req_dec (simp_vol s) 0) as [Z|Z]; [exact Z|]. apply Rabs_no_R0 in Z. contradiction. Qed.

(** ---- cells before and after fix_mesh ---- *)
Definition injective_on (k : list R -> key) (p : list (list R)) : Prop := forall x y, In x p -> In y p -> k x = k y -> x = y.
Lemma clean_cells k p t p' t' : clean k p t p' t' -> injective_on k p -> (forall r v, In r t -> In v r -> (v < length p)%nat) ->
  NoDup p' /\ (forall r, In r t -> exists r', In r' t' /\ Permutation (corner_points p' r') (corner_points p r)) /\
  (forall r', In r' t' -> exists r, In r t /\ Permutation (corner_points p' r') (corner_points p r)).
Proof.
  intros [A F N FW BW _] J V. split; [apply (NoDup_map_inv k), N|].
  assert (forall r r', In r t -> In r' t' -> Permutation (row_keys k p' r') (row_keys k p r) -> Permutation (corner_points p' r') (corner_points p r)) as G.
  { intros r r' I I' P. unfold row_keys in P. rewrite <- (map_map (fun v => nth v p' []) k), <- (map_map (fun v => nth v p []) k) in P. apply (perm_map_inj k) in P; [exact P|].
    intros x y Hx Hy. apply in_map_iff in Hx, Hy. destruct Hx as (v & <- & Iv), Hy as (w & <- & Iw). apply J; [apply F, nth_In, (A r'); assumption|apply nth_In, (V r); assumption]. }
  split; [intros r I; destruct (FW r I) as (r' & I' & P); exists r'|intros r' I'; destruct (BW r' I') as (r & I & P); exists r]; split; auto.
Qed.
Lemma corners_nodup p r : NoDup p -> NoDup r -> (forall v, In v r -> (v < length p)%nat) -> NoDup (corner_points p r).
Proof.
  intros N D V. unfold corner_points. induction D as [|v r I D IH]; cbn; [constructor|]. constructor; [|apply IH; intros w H; apply V; right; exact H].
  intros H. apply in_map_iff in H. destruct H as (w & E & Iw). apply (proj1 (NoDup_nth p []) N) in E; [subst; contradiction|apply V; right; exact Iw|apply V; left; reflexivity].
Qed.
Lemma corners_nodup_inv p r : NoDup (corner_points p r) -> NoDup r.
Proof. apply NoDup_map_inv. Qed.

(** the cells of (p', t') are cells of (p, t) with property Q *)
Record part_of (d : nat) (Q : nat -> Prop) (p : list (list R)) (t : list row) (p' : list (list R)) (t' : list row) : Prop := mkPart {
  pa_nodup : NoDup p';
  pa_from : forall q, In q p' -> In q p;
  pa_simplex : forall r, In r t' -> simplex (S d) r;
  pa_used : forall v, (v < length p')%nat <-> exists r, In r t' /\ In v r;
  pa_distinct : forall i j, (i < length t')%nat -> (j < length t')%nat -> i <> j -> ~ Permutation (nth i t' []) (nth j t' []);
  pa_cells : forall r', In r' t' -> exists e, (e < length t)%nat /\ Q e /\ Permutation (corner_points p' r') (corner_points p (nth e t [])) }.

Section Lint.
Variables (d : nat) (p : list (list R)) (t : list row).
Hypothesis ND : NoDup p.
Hypothesis D : d = 2%nat \/ d = 3%nat.
Hypothesis SX : forall r, In r t -> simplex (S d) r.
Hypothesis US : forall v, (v < length p)%nat <-> exists r, In r t /\ In v r.
Lemma row_valid e v : (e < length t)%nat -> In v (nth e t []) -> (v < length p)%nat.
Proof. intros L I. apply US. exists (nth e t []). split; [apply nth_In, L|exact I]. Qed.
Lemma part_of_clean k kept p' t' (Q : nat -> Prop) : clean k p kept p' t' -> injective_on k p -> (forall v, (v < length p')%nat -> exists r, In r t' /\ In v r) ->
  (forall r, In r kept -> exists e, (e < length t)%nat /\ Q e /\ r = nth e t []) -> part_of d Q p t p' t'.
Proof.
  intros C J U K. assert (forall r v, In r kept -> In v r -> (v < length p)%nat) as V by (intros r v I; destruct (K r I) as (e & L & _ & ->); apply row_valid, L).
  destruct (clean_cells _ _ _ _ _ C J V) as (N & FW & BW). destruct C as [A F _ _ _ DI]. split; try assumption.
  - intros r I. destruct (BW r I) as (r0 & I0 & P). destruct (K r0 I0) as (e & L & _ & ->). assert (In (nth e t []) t) as I1 by (apply nth_In, L). destruct (SX _ I1) as [LE NE]. split.
    + apply Permutation_length in P. unfold corner_points in P. rewrite !map_length in P. congruence.
    + apply (corners_nodup_inv p'). apply (Permutation_NoDup (Permutation_sym P)). apply corners_nodup; [exact ND|exact NE|]. intros v Iv. apply (row_valid e); assumption.
  - intros v. split; [apply U|]. intros (r & I & Iv). apply (A r); assumption.
  - intros r' I. destruct (BW r' I) as (r & I' & P). destruct (K r I') as (e & L & HQ & ->). exists e. auto.
Qed.
(** corresponding pairs are reported alike *)
Lemma centre_in_moves p' r r' e f : (e < length t)%nat -> (f < length t)%nat -> Permutation (corner_points p' r) (corner_points p (nth e t [])) ->
  Permutation (corner_points p' r') (corner_points p (nth f t [])) -> (forall v, In v r -> (v < length p')%nat) -> centre_in d p' r r' -> centre_in d p (nth e t []) (nth f t []).
Proof.
  intros Le Lf Pe Pf V ((v & I1 & I2) & NV & H). assert (length (corner_points p' r) = S d) as LE.
  { rewrite (Permutation_length Pe). unfold corner_points. rewrite map_length. apply SX, nth_In, Le. }
  split; [|split].
  - assert (In (nth v p' []) (corner_points p (nth e t []))) as A by (apply (Permutation_in _ Pe), in_map_iff; eauto).
    assert (In (nth v p' []) (corner_points p (nth f t []))) as B by (apply (Permutation_in _ Pf), in_map_iff; eauto).
    apply in_map_iff in A, B. destruct A as (a & Ea & Ia), B as (b & Eb & Ib). exists a. split; [exact Ia|].
    assert (a = b) as -> by (apply (proj1 (NoDup_nth p []) ND); [apply (row_valid e); assumption|apply (row_valid f); assumption|congruence]). exact Ib.
  - exact (vol_perm _ _ Pf NV).
  - rewrite (centre_perm d _ _ LE Pe). destruct (d =? 2)%nat; [exact (hull_perm _ _ _ _ Pf H)|exact (open_hull_perm _ _ _ _ Pf H)].
Qed.
Lemma part_same p' t' Q i j e : part_of d Q p t p' t' -> (i < length t')%nat -> (j < length t')%nat ->
  Permutation (corner_points p' (nth i t' [])) (corner_points p (nth e t [])) -> Permutation (corner_points p' (nth j t' [])) (corner_points p (nth e t [])) -> i = j.
Proof.
  intros PA Li Lj Pi Pj. destruct (Nat.eq_dec i j) as [E|N]; [exact E|]. exfalso. apply (pa_distinct _ _ _ _ _ _ PA i j Li Lj N).
  assert (Permutation (corner_points p' (nth i t' [])) (corner_points p' (nth j t' []))) as P by (rewrite Pi; symmetry; exact Pj).
  unfold corner_points in P. apply (perm_map_inj (fun v => nth v p' [])) in P; [exact P|]. intros x y Ix Iy E. apply (proj1 (NoDup_nth p' []) (pa_nodup _ _ _ _ _ _ PA)) in E; [exact E| |]; apply (pa_used _ _ _ _ _ _ PA).
  - exists (nth i t' []). split; [apply nth_In, Li|exact Ix].
  - exists (nth j t' []). split; [apply nth_In, Lj|exact Iy].
Qed.
End Lint.

Lemma argmin_lower a b : argmin2 a b = if match a, b with Some x, Some y => Rltb y x | Some _, None => true | _, _ => false end then 1%nat else 0%nat.
Proof. destruct a, b; cbn; try destruct (Rltb _ _); reflexivity. Qed.
Lemma argmin_cases a b : (argmin2 a b = 0%nat /\ ~ lower b a) \/ (argmin2 a b = 1%nat /\ lower b a).
Proof.
  destruct a as [x|], b as [y|]; cbn; try tauto. destruct (Rltb y x) eqn:E; [apply Rltb_true in E|apply Rltb_false in E]; [right|left]; split; try reflexivity; lra.
Qed.
Lemma lint_delete_in p t pairs e : In e (lint_delete p t pairs) <->
  exists f, (In (e, f) pairs /\ ~ lower (entity_qual p t f) (entity_qual p t e)) \/ (In (f, e) pairs /\ lower (entity_qual p t e) (entity_qual p t f)).
Proof.
  unfold lint_delete. rewrite unique_nat_in, in_map_iff. split.
  - intros ([a b] & E & I). cbn [fst snd] in E. destruct (argmin_cases (entity_qual p t a) (entity_qual p t b)) as [[A L]|[A L]]; rewrite A in E; subst e; [exists b|exists a]; auto.
  - intros (f & [[I L]|[I L]]); [exists (e, f)|exists (f, e)]; cbn [fst snd]; (split; [|exact I]).
    + destruct (argmin_cases (entity_qual p t e) (entity_qual p t f)) as [[A _]|[_ L']]; [rewrite A; reflexivity|contradiction].
    + destruct (argmin_cases (entity_qual p t f) (entity_qual p t e)) as [[_ L']|[A _]]; [contradiction|rewrite A; reflexivity].
Qed.
Lemma drop_rows_spec del t r : In r (drop_rows del t) <-> exists e, (e < length t)%nat /\ ~ In e del /\ r = nth e t [].
Proof.
  unfold drop_rows. rewrite in_map_iff. split.
  - intros (e & <- & I). apply filter_In in I. destruct I as [I N]. apply in_seq in I. exists e. split; [lia|]. split; [|reflexivity]. intros K. apply negb_true_iff in N.
    assert (existsb (Nat.eqb e) del = true) as X by (apply existsb_exists; exists e; split; [exact K|apply Nat.eqb_refl]). congruence.
  - intros (e & L & N & ->). exists e. split; [reflexivity|]. apply filter_In. split; [apply in_seq; lia|]. apply negb_true_iff. destruct (existsb (Nat.eqb e) del) eqn:X; [|reflexivity].
    apply existsb_exists in X. destruct X as (x & I & E). apply Nat.eqb_eq in E. subst. contradiction.
Qed.
