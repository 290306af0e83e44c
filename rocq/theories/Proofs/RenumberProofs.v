(** Counting entities does not depend on the numbering. *)
From Coq Require Import List Arith Bool Lia Permutation Sorted.
From Verif Require Import Model.Mesh Spec.MeshTopo Spec.Renumber Proofs.ListAux Proofs.MeshAux Proofs.EdgeProofs Proofs.TopoProofs.
Import ListNotations.

Lemma Forall2_in_l {A B} (P : A -> B -> Prop) l m x : Forall2 P l m -> In x l -> exists y, In y m /\ P x y.
Proof. intros F. induction F as [|a b l m H F IH]; intros I; [destruct I|]. destruct I as [-> |I]; [exists b; split; [left; reflexivity|exact H]|]. destruct (IH I) as (y & Iy & Py). exists y. split; [right; exact Iy|exact Py]. Qed.
Lemma Forall2_in_r {A B} (P : A -> B -> Prop) l m y : Forall2 P l m -> In y m -> exists x, In x l /\ P x y.
Proof. intros F. induction F as [|a b l m H F IH]; intros I; [destruct I|]. destruct I as [-> |I]; [exists a; split; [left; reflexivity|exact H]|]. destruct (IH I) as (x & Ix & Px). exists x. split; [right; exact Ix|exact Px]. Qed.
Lemma Forall2_len {A B} (P : A -> B -> Prop) l m : Forall2 P l m -> length l = length m.
Proof. intros F. induction F; cbn; congruence. Qed.
Lemma Forall2_filter {A B} (P : A -> B -> Prop) f g l m : Forall2 P l m -> (forall x y, In x l -> In y m -> P x y -> f x = g y) -> Forall2 P (filter f l) (filter g m).
Proof.
  intros F. induction F as [|a b l m H F IH]; intros E; [constructor|]. cbn [filter]. rewrite (E a b (or_introl eq_refl) (or_introl eq_refl) H).
  assert (R : Forall2 P (filter f l) (filter g m)) by (apply IH; intros x y Ix Iy; apply E; right; assumption).
  destruct (g b); [constructor; assumption|exact R].
Qed.
Lemma perm_filter {A} (f : A -> bool) l m : Permutation l m -> Permutation (filter f l) (filter f m).
Proof. intros P. induction P as [|x l m P IH|x y l|l m n P1 IH1 P2 IH2]; cbn [filter]; [reflexivity|destruct (f x); [constructor|]; exact IH|destruct (f x), (f y); try reflexivity; apply perm_swap|rewrite IH1; exact IH2]. Qed.
Lemma has_spec r v : has r v = true <-> In v r.
Proof. unfold has. rewrite existsb_exists. split; [intros (x & I & E); apply Nat.eqb_eq in E; subst; exact I|]. intros I. exists v. split; [exact I|apply Nat.eqb_refl]. Qed.
Lemma forallb_perm {A} (f : A -> bool) l m : Permutation l m -> forallb f l = forallb f m.
Proof. intros P. induction P as [|x l m P IH|x y l|l m n P1 IH1 P2 IH2]; cbn [forallb]; [reflexivity|rewrite IH; reflexivity|destruct (f x), (f y); reflexivity|congruence]. Qed.
Lemma entities_perm f g t : Permutation f g -> entities_on f t = entities_on g t.
Proof. intros P. unfold entities_on. f_equal. apply filter_ext. intros r. apply forallb_perm, P. Qed.

Section Ren.
Variables (pi : nat -> nat) (t t' : list (list nat)).
Hypothesis REN : renumbered pi t t'.
Hypothesis INJ : distinct_numbers pi t.

Lemma used_image v : used t v -> used t' (pi v).
Proof.
  intros (r & I & Iv). destruct REN as (t1 & P & F). destruct (Forall2_in_l _ _ _ _ F I) as (r' & I' & Q). exists r'. split; [apply (Permutation_in _ P I')|].
  apply (Permutation_in _ Q), in_map, Iv.
Qed.
Lemma used_preimage w : used t' w -> exists v, used t v /\ pi v = w.
Proof.
  intros (r' & I & Iw). destruct REN as (t1 & P & F). apply (Permutation_in _ (Permutation_sym P)) in I. destruct (Forall2_in_r _ _ _ _ F I) as (r & I' & Q).
  apply (Permutation_in _ (Permutation_sym Q)) in Iw. apply in_map_iff in Iw as (v & E & Iv). exists v. split; [exists r; auto|exact E].
Qed.
Lemma face_same r r' f : In r t -> Permutation (map pi r) r' -> (forall v, In v f -> used t v) -> forallb (has r') (map pi f) = forallb (has r) f.
Proof.
  intros I Q U. induction f as [|v f IH]; [reflexivity|]. cbn [map forallb]. rewrite IH by (intros w W; apply U; right; exact W). f_equal.
  apply eq_true_iff_eq. rewrite !has_spec. split.
  - intros X. apply (Permutation_in _ (Permutation_sym Q)) in X. apply in_map_iff in X as (w & E & W). rewrite (INJ v w); [exact W|apply U; left; reflexivity|exists r; auto|symmetry; exact E].
  - intros X. apply (Permutation_in _ Q), in_map, X.
Qed.
Lemma entities_same f : (forall v, In v f -> used t v) -> entities_on (map pi f) t' = entities_on f t.
Proof.
  intros U. destruct REN as (t1 & P & F). unfold entities_on. rewrite <- (Permutation_length (perm_filter _ _ _ P)).
  symmetry. match goal with |- ?a = ?b => assert (LL : Forall2 (fun r r' => Permutation (map pi r) r') (filter (fun r => forallb (has r) f) t) (filter (fun r => forallb (has r) (map pi f)) t1)) end; [|exact (Forall2_len _ _ _ LL)]. apply Forall2_filter; [exact F|]. intros r r' I _ Q. symmetry. apply face_same; assumption.
Qed.
Lemma face_used f : entities_on f t = 1 -> forall v, In v f -> used t v.
Proof.
  intros E v I. unfold entities_on in E. destruct (filter _ t) as [|r l] eqn:Q; [discriminate|]. assert (J : In r (r :: l)) by (left; reflexivity). rewrite <- Q in J.
  apply filter_In in J as (J & A). exists r. split; [exact J|]. rewrite forallb_forall in A. apply has_spec, A, I.
Qed.
End Ren.
Lemma image_nodup pi t f : distinct_numbers pi t -> (forall v, In v f -> used t v) -> NoDup f -> NoDup (map pi f).
Proof.
  intros INJ U N. induction N as [|v f NI N IH]; [constructor|]. cbn [map]. constructor; [|apply IH; intros w W; apply U; right; exact W].
  intros X. apply in_map_iff in X as (w & E & W). apply NI. rewrite <- (INJ w v); [exact W|apply U; right; exact W|apply U; left; reflexivity|exact E].
Qed.
(** a list of preimages *)
Lemma preimages pi t t' : renumbered pi t t' -> forall g, (forall w, In w g -> used t' w) -> exists f, map pi f = g /\ forall v, In v f -> used t v.
Proof.
  intros REN g. induction g as [|w g IH]; intros U; [exists []; split; [reflexivity|intros v []]|].
  destruct IH as (f & E & UF); [intros x X; apply U; right; exact X|]. destruct (used_preimage pi t t' REN w (U w (or_introl eq_refl))) as (v & Uv & Ev).
  exists (v :: f). split; [cbn [map]; congruence|]. intros x [<- |X]; [exact Uv|apply UF, X].
Qed.
(** the faces with exactly one entity *)
Definition bound_faces (n : nat) (t l : list (list nat)) : Prop := NoDup l /\ forall f, In f l <-> increasing f /\ length f = n /\ entities_on f t = 1.
Lemma increasing_nodup f : increasing f -> NoDup f.
Proof.
  rewrite increasing_ss. intros S. induction S as [|x l S IH F]; constructor; [|exact IH]. intros I. rewrite Forall_forall in F. specialize (F x I). lia.
Qed.
Lemma increasing_sort f : NoDup f -> increasing (sort_nat f).
Proof. intros N. apply increasing_ss, sort_nodup_lt, N. Qed.
Lemma increasing_fixed f : increasing f -> sort_nat f = f.
Proof. intros H. apply sorted_face; [apply increasing_ss, H|apply increasing_nodup, H|reflexivity|intros x X; exact X]. Qed.
Theorem faces_renumbered n pi t t' l l' : renumbered pi t t' -> distinct_numbers pi t -> bound_faces n t l -> bound_faces n t' l' ->
  Permutation (map (fun f => sort_nat (map pi f)) l) l'.
Proof.
  intros REN INJ (N & S) (N' & S'). apply NoDup_Permutation.
  - assert (G : forall m, NoDup m -> incl m l -> NoDup (map (fun f => sort_nat (map pi f)) m)); [|apply G; [exact N|intros x X; exact X]].
    intros m Nm. induction Nm as [|f m NI Nm IH]; intros IL; [constructor|]. cbn [map]. constructor; [|apply IH; intros x X; apply IL; right; exact X].
    intros X. apply in_map_iff in X as (g & E & G). apply NI. assert (Sf := proj1 (S f) (IL f (or_introl eq_refl))). assert (Sg := proj1 (S g) (IL g (or_intror G))).
    destruct Sf as (If & Lf & Ef), Sg as (Ig & Lg & Eg). apply sort_nat_eq in E. assert (P : Permutation g f).
    { apply (perm_map_inj pi); [|exact E]. intros v w V W. apply INJ; [eapply face_used; [exact Eg|exact V]|eapply face_used; [exact Ef|exact W]]. }
    apply sort_nat_eq in P. rewrite !increasing_fixed in P by assumption. congruence.
  - exact N'.
  - intros g. rewrite S', in_map_iff. split.
    + intros (f & <- & I). apply S in I as (If & Lf & Ef). pose proof (face_used t f Ef) as U. split; [apply increasing_sort, (image_nodup pi t); [exact INJ|exact U|apply increasing_nodup, If]|].
      split; [rewrite sort_nat_length, map_length; exact Lf|]. rewrite (entities_perm _ (map pi f)) by apply sort_nat_perm. rewrite (entities_same pi t t' REN INJ f U). exact Ef.
    + intros (Ig & Lg & Eg). destruct (preimages pi t t' REN g (face_used t' g Eg)) as (f & E & U). exists (sort_nat f).
      assert (Q : Permutation (map pi (sort_nat f)) g) by (rewrite <- E; apply Permutation_map, sort_nat_perm).
      split; [apply sort_nat_eq in Q; rewrite Q; apply increasing_fixed, Ig|]. apply S.
      assert (NF : NoDup f) by (apply (NoDup_map_inv pi); rewrite E; apply increasing_nodup, Ig).
      split; [apply increasing_sort, NF|]. split; [rewrite sort_nat_length; rewrite <- Lg, <- E, map_length; reflexivity|].
      rewrite (entities_perm _ f) by apply sort_nat_perm. rewrite <- (entities_same pi t t' REN INJ f U), E. exact Eg.
Qed.
Lemma renumbered_simplex n pi t t' : renumbered pi t t' -> distinct_numbers pi t -> (forall r, In r t -> simplex n r) -> forall r, In r t' -> simplex n r.
Proof.
  intros (t1 & P & F) INJ S r' I. apply (Permutation_in _ (Permutation_sym P)) in I. destruct (Forall2_in_r _ _ _ _ F I) as (r & J & Q). destruct (S r J) as (L & N). split.
  - rewrite <- (Permutation_length Q), map_length. exact L.
  - apply (Permutation_NoDup Q). apply (image_nodup pi t); [exact INJ|intros v V; exists r; auto|exact N].
Qed.
