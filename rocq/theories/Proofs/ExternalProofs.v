(** remove_external_entities *)
From Coq Require Import List ZArith Reals Bool Arith Lia Lra.
From Verif Require Import Model.Base Model.SDF Model.Mesh Spec.Geom Proofs.ListAux Proofs.SDFPrim.
Import ListNotations.

(** the box of an extent *)
Definition ext_box (extent : list R) : list R :=
  match extent with [a; b; c; d] => [a; c; b; d] | [a; b; c; d; e; f] => [a; d; b; e; c; f] | _ => [] end.

Lemma filter_all_length {A} (f : A -> bool) l : length (filter f l) = length l <-> forall x, In x l -> f x = true.
Proof.
  induction l as [|x l IH]; cbn; [split; [intros _ y []|reflexivity]|]. destruct (f x) eqn:E; cbn.
  - split.
    + intros H. injection H as H. intros y [<- | Hy]; [exact E|]. apply IH; assumption.
    + intros H. f_equal. apply IH. intros; apply H; right; assumption.
  - split.
    + intros H. exfalso. pose proof (filter_length_le f l). lia.
    + intros H. rewrite (H x (or_introl eq_refl)) in E. discriminate.
Qed.
Lemma remove_external_spec rnd F dim extent p t : sign_exact rnd F ->
  (dim = 2 /\ length extent = 4 \/ dim = 3 /\ length extent = 6) -> Forall F extent ->
  (forall q, In q p -> length q = dim /\ Forall F q) -> (forall r, In r t -> length r = S dim /\ forall v, In v r -> v < length p) ->
  exists t', remove_external rnd dim extent p t = (p, t', seq 0 (length p)) /\
    forall r, In r t' <-> In r t /\ exists v, In v r /\ in_box (ext_box extent) (nth v p []).
Proof.
  intros HS HD HE HP HT. eexists. split; [reflexivity|]. intros r. rewrite filter_In, negb_true_iff, Nat.eqb_neq. split.
  - intros [I N]. split; [exact I|]. destruct (HT r I) as [HL HV].
    assert (exists v, In v r /\ Rltb 0 (ext_dist rnd extent (nth v p [])) = false) as [v [Iv E]].
    { rewrite <- HL in N. clear - N. induction r as [|v r IH]; [cbn in N; lia|]. cbn in N. destruct (Rltb 0 (ext_dist rnd extent (nth v p []))) eqn:E.
      - cbn in N. destruct IH as [w [A B]]; [lia|]. exists w. split; [right; exact A|exact B].
      - exists v. split; [left; reflexivity|exact E]. }
    exists v. split; [exact Iv|]. apply Rltb_false in E.
    destruct (HP (nth v p []) (nth_In _ _ (HV v Iv))) as [Lq Fq].
    destruct HD as [[-> L4]|[-> L6]].
    + destruct extent as [|a [|b [|c [|d [|? ?]]]]]; cbn in L4; try lia. destruct (nth v p []) as [|x [|y [|? ?]]]; cbn in Lq; try lia.
      cbn in E. apply (rect_rounded_sign rnd F a c b d x y HS) in E; [exact E|]. rewrite Forall_forall in *. intros z Hz. cbn in Hz. intuition (subst; try (apply HE; cbn; tauto); try (apply Fq; cbn; tauto)).
    + destruct extent as [|a [|b [|c [|d [|e [|f [|? ?]]]]]]]; cbn in L6; try lia. destruct (nth v p []) as [|x [|y [|z [|? ?]]]]; cbn in Lq; try lia.
      cbn in E. apply (block_rounded_sign rnd F a d b e c f x y z HS) in E; [exact E|]. rewrite Forall_forall in *. intros w Hw. cbn in Hw. intuition (subst; try (apply HE; cbn; tauto); try (apply Fq; cbn; tauto)).
  - intros [I [v [Iv B]]]. split; [exact I|]. destruct (HT r I) as [HL HV]. rewrite <- HL. intros K. rewrite filter_all_length in K. specialize (K v Iv).
    apply Rltb_true in K. destruct (HP (nth v p []) (nth_In _ _ (HV v Iv))) as [Lq Fq].
    destruct HD as [[-> L4]|[-> L6]].
    + destruct extent as [|a [|b [|c [|d [|? ?]]]]]; cbn in L4; try lia. destruct (nth v p []) as [|x [|y [|? ?]]]; cbn in Lq; try lia.
      cbn [ext_dist] in K. cbn [ext_box] in B. apply (rect_rounded_sign rnd F a c b d x y HS) in B; [lra|]. rewrite Forall_forall in *. intros z Hz. cbn in Hz. intuition (subst; try (apply HE; cbn; tauto); try (apply Fq; cbn; tauto)).
    + destruct extent as [|a [|b [|c [|d [|e [|f [|? ?]]]]]]]; cbn in L6; try lia. destruct (nth v p []) as [|x [|y [|z [|? ?]]]]; cbn in Lq; try lia.
      cbn [ext_dist] in K. cbn [ext_box] in B. apply (block_rounded_sign rnd F a d b e c f x y z HS) in B; [lra|]. rewrite Forall_forall in *. intros w Hw. cbn in Hw. intuition (subst; try (apply HE; cbn; tauto); try (apply Fq; cbn; tauto)).
Qed.
