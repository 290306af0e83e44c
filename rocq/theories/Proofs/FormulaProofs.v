(** Determinants, volumes, gradients, point location. *)
From Coq Require Import List ZArith Reals Bool Arith Lia Lra Permutation.
From Verif Require Import Model.Base Model.SDF Model.Simplex Model.Mesh Model.Formulas Spec.Linear Proofs.ListAux.
Import ListNotations.
Local Open Scope R_scope.

(** ---- the enumeration of permutations ---- *)
Lemma insertions_in {A} (x : A) l s : In s (insertions x l) <-> exists a b, l = a ++ b /\ s = a ++ x :: b.
Proof.
  revert s. induction l as [|y l IH]; intros s; cbn.
  - split; [intros [<- | []]; exists [], []; auto|]. intros [a [b [E ->]]]. destruct a, b; cbn in E; try discriminate. left; reflexivity.
  - split.
    + intros [<- | H]; [exists [], (y :: l); auto|]. apply in_map_iff in H. destruct H as [s' [<- H]]. apply IH in H.
      destruct H as [a [b [-> ->]]]. exists (y :: a), b. auto.
    + intros [a [b [E ->]]]. destruct a as [|z a]; cbn in *; [left; subst; reflexivity|]. inversion E; subst. right. apply in_map, IH. exists a, b. auto.
Qed.
Lemma permutations_spec {A} (l : list A) s : In s (permutations l) <-> Permutation l s.
Proof.
  revert s. induction l as [|x l IH]; intros s; cbn.
  - split; [intros [<- | []]; constructor|]. intros H. apply Permutation_nil in H. left; auto.
  - rewrite in_flat_map. split.
    + intros [s' [H1 H2]]. apply IH in H1. apply insertions_in in H2. destruct H2 as [a [b [-> ->]]]. rewrite H1. apply Permutation_middle.
    + intros H. assert (In x s) as I by (apply (Permutation_in x H); left; reflexivity). apply in_split in I. destruct I as [a [b ->]].
      exists (a ++ b). split; [apply IH; apply Permutation_cons_app_inv in H; exact H|]. apply insertions_in. exists a, b. auto.
Qed.
Lemma insertions_nodup {A} (x : A) l : ~ In x l -> NoDup l -> NoDup (insertions x l).
Proof.
  induction l as [|y l IH]; intros Hx Hl; cbn; [constructor; [tauto|constructor]|]. inversion Hl; subst.
  constructor.
  - intros I. apply in_map_iff in I. destruct I as [s [E _]]. inversion E; subst. apply Hx. left; reflexivity.
  - apply FinFun.Injective_map_NoDup; [intros u v E; inversion E; reflexivity|]. apply IH; [intros K; apply Hx; right; exact K|assumption].
Qed.
Lemma remove_insertion {A} (dec : forall x y : A, {x = y} + {x <> y}) x a b : ~ In x a -> ~ In x b -> remove dec x (a ++ x :: b) = a ++ b.
Proof. intros Ha Hb. rewrite remove_app. cbn. destruct (dec x x); [|contradiction]. rewrite !notin_remove by assumption. reflexivity. Qed.
Lemma permutations_nodup (l : list nat) : NoDup l -> NoDup (permutations l).
Proof.
  induction l as [|x l IH]; intros Hl; cbn; [constructor; [tauto|constructor]|]. inversion Hl; subst.
  assert (forall L, NoDup L -> (forall s, In s L -> Permutation l s) -> NoDup (flat_map (insertions x) L)) as Q.
  { intros L. induction L as [|s L IHL]; intros HL HP; cbn; [constructor|]. inversion HL; subst.
    assert (~ In x s /\ NoDup s) as [Nx Ns].
    { pose proof (HP s (or_introl eq_refl)) as P. split; [intros K; apply H1; apply (Permutation_in x (Permutation_sym P)), K|apply (Permutation_NoDup P); assumption]. }
    assert (NoDup (flat_map (insertions x) L)) as IHL' by (apply IHL; [assumption|intros; apply HP; right; assumption]).
    pose proof (insertions_nodup x s Nx Ns) as ND.
    assert (forall z, In z (insertions x s) -> ~ In z (flat_map (insertions x) L)) as DJ.
    { intros z Hz K. apply in_flat_map in K. destruct K as [s' [Hs' Hz']]. apply insertions_in in Hz. apply insertions_in in Hz'.
      destruct Hz as [a [b [-> ->]]]. destruct Hz' as [a' [b' [E1 E2]]].
      assert (~ In x s') as Nx' by (intros K; apply H1; apply (Permutation_in x (Permutation_sym (HP s' (or_intror Hs')))), K).
      subst s'. assert (a ++ b = a' ++ b') as EE.
      { rewrite <- (remove_insertion Nat.eq_dec x a b), E2, remove_insertion; [reflexivity|..]; intros K;
          first [apply Nx; apply in_or_app; tauto | apply Nx'; apply in_or_app; tauto]. }
      apply H3. rewrite EE. exact Hs'. }
    clear - ND IHL' DJ. revert ND DJ. generalize (insertions x s) as M. induction M as [|m M IHM]; intros ND DJ; cbn; [exact IHL'|]. inversion ND; subst.
    constructor; [|apply IHM; [assumption|intros; apply DJ; right; assumption]].
    intros K. apply in_app_or in K. destruct K as [K|K]; [contradiction|]. apply (DJ m); [left; reflexivity|exact K]. }
  apply Q; [apply IH; assumption|]. intros s Hs. apply permutations_spec, Hs.
Qed.

(** ---- determinants ---- *)
Ltac len_list m := match goal with H : length m = _ |- _ =>
  repeat (destruct m as [|? m]; [discriminate H|cbn [length] in H; apply eq_add_S in H]); destruct m; [clear H|discriminate H] end.
Ltac calc := cbn [leibniz permutations insertions seq flat_map map app fold_right inversions filter length Nat.ltb Nat.leb Nat.add Nat.mul nth pow].
Lemma det3_leibniz m : length m = 9%nat -> det3 m = leibniz 3 m.
Proof. intros H. len_list m. unfold leibniz, det3. calc. ring. Qed.
Lemma det4_leibniz m : length m = 16%nat -> det4 m = leibniz 4 m.
Proof. intros H. len_list m. unfold leibniz, det4. calc. ring. Qed.

Ltac pts2 s H := destruct H as [HL HF]; destruct s as [|? [|? [|? [|? ?]]]]; try discriminate HL; clear HL;
  repeat match goal with H : Forall _ (_ :: _) |- _ => inversion H; subst; clear H end;
  repeat match goal with H : length ?p = 2%nat |- _ => destruct p as [|? [|? [|? ?]]]; try discriminate H; clear H end.
Ltac pts3 s H := destruct H as [HL HF]; destruct s as [|? [|? [|? [|? [|? ?]]]]]; try discriminate HL; clear HL;
  repeat match goal with H : Forall _ (_ :: _) |- _ => inversion H; subst; clear H end;
  repeat match goal with H : length ?p = 3%nat |- _ => destruct p as [|? [|? [|? [|? ?]]]]; try discriminate H; clear H end.
Lemma det4_vol s : simplex_points 3 s -> det4 (concat (map hom s)) = - 6 * simp_vol s.
Proof. intros H. pts3 s H. cbn. field. Qed.

(** ---- volumes ---- *)
Definition exchange {A} (d : A) (i j : nat) (s : list A) : list A := upd (upd s i (nth j s d)) j (nth i s d).
Lemma vol_exchange d s i j : d = 2%nat \/ d = 3%nat -> simplex_points d s -> (i < S d)%nat -> (j < S d)%nat -> i <> j ->
  simp_vol (exchange [] i j s) = - simp_vol s.
Proof.
  intros [-> | ->] H Hi Hj N.
  - pts2 s H. destruct i as [|[|[|i]]]; try lia; destruct j as [|[|[|j]]]; try lia; cbn; lra.
  - pts3 s H. destruct i as [|[|[|[|i]]]]; try lia; destruct j as [|[|[|[|j]]]]; try lia; cbn [exchange upd nth simp_vol]; unfold exchange; cbn [upd nth simp_vol]; lra.
Qed.
Lemma vol_affine d s m b : d = 2%nat \/ d = 3%nat -> simplex_points d s -> length m = (d * d)%nat -> length b = d ->
  simp_vol (map (fun q => vplus (apply_matrix d m q) b) s) = leibniz d m * simp_vol s.
Proof.
  intros [-> | ->] H Hm Hb.
  - pts2 s H. cbn in Hm. len_list m. try len_list b. unfold leibniz. calc. cbn. field.
  - pts3 s H. cbn in Hm. len_list m. try len_list b. unfold leibniz. calc. cbn [apply_matrix inner firstn skipn seq map vplus simp_vol Nat.mul Nat.add]. 
    unfold apply_matrix. cbn [inner firstn skipn seq map vplus simp_vol Nat.mul Nat.add]. field.
Qed.
Lemma vol_translate d s h : d = 2%nat \/ d = 3%nat -> simplex_points d s -> length h = d -> simp_vol (map (vplus h) s) = simp_vol s.
Proof.
  intros [-> | ->] H Hh.
  - pts2 s H. try len_list h. cbn. field.
  - pts3 s H. try len_list h. cbn. field.
Qed.
Lemma vol_scale d s c : d = 2%nat \/ d = 3%nat -> simplex_points d s -> simp_vol (map (vtimes c) s) = c ^ d * simp_vol s.
Proof.
  intros [-> | ->] H.
  - pts2 s H. cbn. field.
  - pts3 s H. cbn. field.
Qed.
Lemma vol_split d s q : d = 2%nat \/ d = 3%nat -> simplex_points d s -> length q = d ->
  fold_right Rplus 0 (map (fun i => simp_vol (upd s i q)) (seq 0 (S d))) = simp_vol s.
Proof.
  intros [-> | ->] H Hq.
  - pts2 s H. try len_list q. cbn. field.
  - pts3 s H. try len_list q. cbn [seq map upd fold_right simp_vol]. field.
Qed.
Lemma volume_grad_exact p0 p1 p2 p3 h : simplex_points 3 [p0; p1; p2; p3] -> length h = 3%nat ->
  simp_vol [vplus p0 h; p1; p2; p3] = simp_vol [p0; p1; p2; p3] - inner (volume_grad p1 p2 p3) h.
Proof. intros H Hh. destruct H as [_ HF]. repeat match goal with H : Forall _ (_ :: _) |- _ => inversion H; subst; clear H end.
  len_list p0. len_list p1. len_list p2. len_list p3. try len_list h. cbn. field. Qed.
