From Coq Require Import String List ZArith Reals Bool Lra.
From Verif Require Import Model.Base Model.Options Spec.Boxes Proofs.ListAux.
Import ListNotations.
Local Open Scope R_scope.

Lemma mem_spec k l : mem k l = true <-> In k l.
Proof.
  unfold mem. rewrite existsb_exists. split.
  - intros (x & Hx & E). apply String.eqb_eq in E. subst; assumption.
  - intros H. exists k. split; [exact H|apply String.eqb_refl].
Qed.

Lemma check_keys_ok known kw : check_keys known kw = Ok tt <-> forall k, In k (map fst kw) -> In k known.
Proof.
  induction kw as [|[k v] t IH]; cbn [check_keys map].
  - split; [intros _ k []|reflexivity].
  - destruct (mem k known) eqn:E.
    + apply mem_spec in E. rewrite IH. split.
      * intros H k' [<-|Hk]; auto.
      * intros H k' Hk. apply H. right; exact Hk.
    + split; [discriminate|]. intros H. exfalso. specialize (H k (or_introl eq_refl)). apply mem_spec in H. congruence.
Qed.

Lemma check_keys_err known kw : check_keys known kw = Err ValueError <-> exists k, In k (map fst kw) /\ ~ In k known.
Proof.
  induction kw as [|[k v] t IH]; cbn [check_keys map].
  - split; [discriminate|intros (k & [] & _)].
  - destruct (mem k known) eqn:E.
    + apply mem_spec in E. rewrite IH. split.
      * intros (k' & Hk & Hn). exists k'. split; [right; exact Hk|exact Hn].
      * intros (k' & [<-|Hk] & Hn); [contradiction|]. exists k'. auto.
    + split; [|reflexivity]. intros _. exists k. split; [left; reflexivity|]. rewrite <- mem_spec. congruence.
Qed.

Lemma check_keys_dec known kw : check_keys known kw = Ok tt \/ check_keys known kw = Err ValueError.
Proof. induction kw as [|[k v] t IH]; cbn; [auto|]. destruct (mem k known); auto. Qed.

Lemma verbosity_spec v : (select_verbosity v = Err ValueError <-> nval v < 0 \/ 0 < nval v < 1) /\
  (nval v = 0 -> select_verbosity v = Ok (false, false)) /\
  (nval v = 1 -> select_verbosity v = Ok (true, false)) /\
  (1 < nval v -> select_verbosity v = Ok (true, true)).
Proof.
  unfold select_verbosity, Rgtb.
  destruct (Reqb (nval v) 0) eqn:E0; [apply Reqb_true in E0|apply Reqb_false in E0].
  { repeat split; intros; try discriminate; try reflexivity; try lra. }
  destruct (Reqb (nval v) 1) eqn:E1; [apply Reqb_true in E1|apply Reqb_false in E1].
  { repeat split; intros; try discriminate; try reflexivity; try lra. }
  destruct (Rltb 1 (nval v)) eqn:E2; [apply Rltb_true in E2|apply Rltb_false in E2].
  { repeat split; intros; try discriminate; try reflexivity; try lra. }
  repeat split; intros; try reflexivity; try lra.
Qed.

Lemma check_bbox_spec b : (check_bbox b = Ok tt <-> forall z, ~ In (PInt z) b) /\
  (check_bbox b = Err ValueError <-> exists z, In (PInt z) b).
Proof.
  unfold check_bbox. destruct (existsb is_int b) eqn:E.
  - apply existsb_exists in E. destruct E as ([z|r] & Hin & E); [|discriminate].
    split; split; intros H; try discriminate; try reflexivity; eauto. exfalso. eapply H; eauto.
  - split; split; intros H; try discriminate; try reflexivity.
    + intros z Hz. assert (existsb is_int b = true) by (apply existsb_exists; exists (PInt z); auto). congruence.
    + destruct H as (z & Hz). assert (existsb is_int b = true) by (apply existsb_exists; exists (PInt z); auto). congruence.
Qed.

Lemma box_incl_refl_even n : forall l, length l = (2 * n)%nat -> box_incl l l.
Proof.
  induction n as [|n IH]; intros l Hl.
  - destruct l; [constructor|discriminate].
  - destruct l as [|a [|b t]]; cbn in Hl; try discriminate; [rewrite Nat.add_succ_r in Hl; discriminate|].
    constructor; try lra. apply IH. rewrite Nat.add_succ_r in Hl. injection Hl as Hl. exact Hl.
Qed.

Lemma minmax_smallest n : forall b0 b1, length b0 = (2 * n)%nat -> length b1 = (2 * n)%nat ->
  let m := map nval (minmax b0 b1) in
  box_incl (map nval b0) m /\ box_incl (map nval b1) m /\
  forall c, box_incl (map nval b0) c -> box_incl (map nval b1) c -> box_incl m c.
Proof.
  induction n as [|n IH]; intros b0 b1 H0 H1.
  - destruct b0; [|discriminate]. destruct b1; [|discriminate]. cbn. repeat split; try constructor. auto.
  - destruct b0 as [|a [|b t]]; cbn in H0; try discriminate; [rewrite Nat.add_succ_r in H0; discriminate|].
    destruct b1 as [|a' [|b' t']]; cbn in H1; try discriminate; [rewrite Nat.add_succ_r in H1; discriminate|].
    rewrite Nat.add_succ_r in H0, H1. injection H0 as H0. injection H1 as H1.
    destruct (IH t t' H0 H1) as (I0 & I1 & I2).
    unfold minmax. cbn [minmax_from negb map]. fold minmax. unfold minmax in I0, I1, I2.
    assert (L : nval (if Rltb (nval a') (nval a) then a' else a) = Rmin (nval a) (nval a')).
    { destruct (Rltb _ _) eqn:E; [apply Rltb_true in E; rewrite Rmin_right by lra|apply Rltb_false in E; rewrite Rmin_left by lra]; reflexivity. }
    assert (U : nval (if Rgtb (nval b') (nval b) then b' else b) = Rmax (nval b) (nval b')).
    { unfold Rgtb. destruct (Rltb (nval b) (nval b')) eqn:E; [apply Rltb_true in E; rewrite Rmax_right by lra|apply Rltb_false in E; rewrite Rmax_left by lra]; reflexivity. }
    rewrite L, U. split; [|split].
    + constructor; [apply Rmin_l|apply Rmax_l|exact I0].
    + constructor; [apply Rmin_r|apply Rmax_r|exact I1].
    + intros c Hc Hc'. inversion Hc; subst. inversion Hc'; subst.
      constructor; [apply Rmin_glb; assumption|apply Rmax_lub; assumption|]. apply I2; assumption.
Qed.

Lemma minmax_length b0 b1 up : length (minmax_from up b0 b1) = Nat.min (length b0) (length b1).
Proof. revert b1 up; induction b0 as [|a t IH]; intros [|b t'] up; cbn; auto. Qed.

Ltac rb_inv H := let a := fresh "a" in let E := fresh "E" in
  match type of H with rbind ?r _ = Ok _ => destruct r as [a|] eqn:E; cbn [rbind] in H; [|discriminate H] end.

Lemma prologue_ok d e kw box h0 mi : mesh_prologue d e kw = Ok (box, h0, mi) ->
  (forall k, In k (map fst kw) -> In k mesh_keys) /\ 0 <= nval h0 /\ 0 <= nval mi /\
  exists b0, (forall z, ~ In (PInt z) b0) /\
    ((box = b0 /\ forall b1 h, e <> EdgeSizeFunction b1 h) \/
     exists b1 h, e = EdgeSizeFunction b1 h /\ (forall z, ~ In (PInt z) b1) /\ box = minmax b0 b1 /\ h0 = h).
Proof.
  unfold mesh_prologue. intros H. rb_inv H. destruct a. rb_inv H. rb_inv H. rb_inv H. rb_inv H. cbn [fst snd] in H.
  destruct a1 as [tup b0]. destruct a2 as [ob oh]. cbn [fst snd] in H.
  destruct (negb _); [discriminate|]. rb_inv H. destruct (Rltb (nval a1) 0) eqn:EH; [discriminate|].
  rb_inv H. destruct (Rltb (nval a2) 0) eqn:EM; [discriminate|]. injection H as <- <- <-.
  apply Rltb_false in EH, EM.
  split; [apply check_keys_ok; exact E|]. split; [exact EH|]. split; [exact EM|].
  exists b0. split.
  - unfold unpack_domain in E2. destruct d as [tu b| |]; try discriminate.
    + rb_inv E2. injection E2 as <- <-. destruct a3. apply check_bbox_spec; assumption.
    + destruct (lookup "bbox" kw) as [[n|l|l|]|]; try discriminate; rb_inv E2; injection E2 as <- <-; destruct a3; apply check_bbox_spec; assumption.
  - unfold unpack_sizing in E3. destruct e as [b1 h| |h|]; try discriminate.
    + rb_inv E3. injection E3 as <- <-. right. exists b1, h. split; [reflexivity|]. destruct a3.
      split; [apply check_bbox_spec; assumption|]. cbn [snd]. split; [reflexivity|]. congruence.
    + injection E3 as <- <-. left. split; [reflexivity|discriminate].
    + injection E3 as <- <-. left. split; [reflexivity|discriminate].
Qed.

(** a valid set of arguments (zero h0 and max_iter included) goes through *)
Lemma prologue_accepts b h mi : (forall z, ~ In (PInt z) b) -> 0 <= nval h -> 0 <= nval mi ->
  mesh_prologue (DomGeometry true b) (EdgeScalar h) [("max_iter"%string, VNum mi)] = Ok (b, h, mi).
Proof.
  intros Hb Hh Hm. unfold mesh_prologue. cbn [parse_kwargs check_keys mem mesh_keys existsb String.eqb Ascii.eqb Bool.eqb orb rbind].
  assert (Ev : get_num "verbose" (PInt 1) [("max_iter"%string, VNum mi)] = Ok (PInt 1)) by reflexivity.
  rewrite Ev. cbn [rbind]. destruct (verbosity_spec (PInt 1)) as (_ & _ & V1 & _). rewrite V1 by reflexivity. cbn [rbind unpack_domain].
  rewrite (proj2 (proj1 (check_bbox_spec b)) Hb). cbn [rbind unpack_sizing fst snd negb].
  rewrite (proj2 (Rltb_false (nval h) 0)) by exact Hh.
  assert (Em : get_num "max_iter" (PInt 50) [("max_iter"%string, VNum mi)] = Ok mi) by reflexivity.
  rewrite Em. cbn [rbind]. rewrite (proj2 (Rltb_false (nval mi) 0)) by exact Hm. reflexivity.
Qed.
