(** Top-level facts about [limgrad] (C01-C05). *)
From Coq Require Import List ZArith Reals Lia Lra Psatz Sorted.
From Verif Require Import Model.Base Model.FastHJ Spec.Grid Proofs.ListAux Proofs.GridIndex Proofs.Limgrad.
Import ListNotations.

Definition valid_dims (d0 d1 d2 : nat) : Prop :=
  0 < d0 /\ 0 < d1 /\ 0 < d2 /\ (Z.of_nat d0 * Z.of_nat d1 * Z.of_nat d2 <= 2 ^ 31)%Z.

Lemma is_min_min_list f : f <> [] -> is_min f (min_list f).
Proof. intros H. split; [apply min_list_in; exact H|]. intros x Hx. apply min_list_le. exact Hx. Qed.
Lemma is_min_unique f m m' : is_min f m -> is_min f m' -> m = m'.
Proof. intros [H1 H2] [H3 H4]. apply Rle_antisym; auto. Qed.

Lemma in_nth (l : list R) x : In x l <-> exists i, i < length l /\ nth i l 0%R = x.
Proof.
  split.
  - intros H. destruct (In_nth l x 0%R H) as (i & Hi & E). eauto.
  - intros (i & Hi & <-). apply nth_In. exact Hi.
Qed.

Section M.
Variable rnd : R -> R.
Variable F : R -> Prop.
Hypothesis Hr : is_rounding rnd F.

Lemma r0 : rnd 0 = 0%R.
Proof. apply Hr. apply Hr. Qed.
Lemma r_nonneg x : (0 <= x)%R -> (0 <= rnd x)%R.
Proof. intros H. rewrite <- r0. apply Hr. exact H. Qed.

Lemma ftol_nonneg f : f <> [] -> (forall x, In x f -> (0 <= x)%R) -> (0 <= ftol_of rnd f)%R.
Proof.
  intros Hne Hp. unfold ftol_of. apply r_nonneg. apply Rmult_le_pos.
  - apply Hp. apply min_list_in. exact Hne.
  - apply r_nonneg. apply sqrt_pos.
Qed.

Lemma limgrad_run d0 d1 d2 elen dfdx imax f :
  valid_dims d0 d1 d2 -> length f = d0 * d1 * d2 -> Forall F f -> (forall x, In x f -> (0 <= x)%R) ->
  (0 <= elen)%R -> (0 <= dfdx)%R ->
  exists n act' out b,
    c_limgrad_full rnd (Z.of_nat d0) (Z.of_nat d1) (Z.of_nat d2) elen dfdx imax f = Some (out, b) /\
    steps rnd F d0 d1 d2 (rnd (elen * dfdx)) (ftol_of rnd f) n
      (mkL f (repeat (-1)%Z (d0 * d1 * d2))) (mkL out act') /\
    WF F d0 d1 d2 (mkL f (repeat (-1)%Z (d0 * d1 * d2))) /\
    WF F d0 d1 d2 (mkL out act') /\
    (b = true -> forall u v, edge d0 d1 d2 u v -> ~ viol rnd (rnd (elen * dfdx)) (ftol_of rnd f) out v u) /\
    (b = false -> imax <= n + 1) /\
    (0 <= rnd (elen * dfdx))%R /\ (0 <= ftol_of rnd f)%R.
Proof.
  intros (P0 & P1 & P2 & Hd) HL HF Hp He Hdf.
  assert (Hne : f <> []) by (intros ->; cbn in HL; nia).
  assert (Hg : (0 <= rnd (elen * dfdx))%R) by (apply r_nonneg; nra).
  pose proof (ftol_nonneg f Hne Hp) as Ht.
  set (s0 := mkL f (repeat (-1)%Z (d0 * d1 * d2))).
  assert (HW : WF F d0 d1 d2 s0).
  { unfold WF, s0; cbn [fld act]. rewrite repeat_length. auto. }
  assert (Hact : forall u, u < d0 * d1 * d2 -> nth u (act s0) 0%Z = (-1)%Z).
  { intros u Hu. unfold s0; cbn [act]. rewrite nth_repeat_lt by exact Hu. reflexivity. }
  destruct (loop_spec rnd F Hr d0 d1 d2 Hd (rnd (elen * dfdx)) (ftol_of rnd f) Hg Ht imax 0%Z s0 HW)
    as (n & s' & b & E & St & B1 & B2).
  - intros u v Huv _. left. unfold marked. rewrite Hact; [reflexivity|]. apply (edge_lt _ _ _ _ _ Huv).
  - exists n, (act s'), (fld s'), b.
    assert (EN : Z.to_nat (Z.of_nat d0 * Z.of_nat d1 * Z.of_nat d2) = (d0 * d1 * d2)%nat) by lia.
    split; [unfold c_limgrad_full; rewrite EN; fold s0; rewrite E; reflexivity|].
    assert (HE : mkL (fld s') (act s') = s') by (destruct s'; reflexivity). rewrite HE.
    split; [exact St|]. split; [exact HW|].
    split; [eapply steps_WF; eauto|]. split; [exact B1|].
    split; [|auto]. intros Hb. apply B2; [exact Hb|]. intros u Hu. rewrite Hact by exact Hu. lia.
Qed.

Lemma refines_only d0 d1 d2 elen dfdx imax f :
  valid_dims d0 d1 d2 -> length f = d0 * d1 * d2 -> Forall F f -> (forall x, In x f -> (0 <= x)%R) ->
  (0 <= elen)%R -> (0 <= dfdx)%R ->
  exists out, limgrad rnd (Z.of_nat d0) (Z.of_nat d1) (Z.of_nat d2) elen dfdx imax f = Some out /\
    length out = length f /\
    (forall i, (nth i out 0 <= nth i f 0)%R) /\
    (forall m, is_min f m -> is_min out m).
Proof.
  intros Hd HL HF Hp He Hdf.
  destruct (limgrad_run d0 d1 d2 elen dfdx imax f Hd HL HF Hp He Hdf)
    as (n & act' & out & b & E & St & W0 & W1 & _ & _ & Hg & Ht).
  exists out. split; [unfold limgrad; rewrite E; reflexivity|].
  assert (HLo : length out = length f) by (destruct W1 as [W1 _]; cbn [fld] in W1; lia).
  split; [exact HLo|].
  pose proof (steps_decrease rnd F Hr _ _ _ _ _ Ht _ _ _ St) as Hdec. cbn [fld] in Hdec.
  split; [exact Hdec|].
  intros m [Hm1 Hm2].
  pose proof (steps_lower rnd F Hr _ _ _ _ _ Hg m _ _ _ St) as Hlow. cbn [fld] in Hlow.
  assert (Hlow' : forall x, x < d0 * d1 * d2 -> (m <= nth x out 0)%R).
  { apply Hlow. intros x Hx. apply Hm2. apply nth_In. lia. }
  split.
  - apply in_nth in Hm1. destruct Hm1 as (i & Hi & Ei). apply in_nth. exists i. split; [lia|].
    apply Rle_antisym; [rewrite <- Ei; apply Hdec|apply Hlow'; lia].
  - intros x Hx. apply in_nth in Hx. destruct Hx as (i & Hi & <-). apply Hlow'. lia.
Qed.

Lemma converged_bound d0 d1 d2 elen dfdx imax f out :
  valid_dims d0 d1 d2 -> length f = d0 * d1 * d2 -> Forall F f -> (forall x, In x f -> (0 <= x)%R) ->
  (0 <= elen)%R -> (0 <= dfdx)%R ->
  c_limgrad_full rnd (Z.of_nat d0) (Z.of_nat d1) (Z.of_nat d2) elen dfdx imax f = Some (out, true) ->
  forall p q, in_grid d0 d1 d2 p -> in_grid d0 d1 d2 q -> adjacent p q ->
  (val d0 d1 out q <= rnd (rnd (val d0 d1 out p + rnd (elen * dfdx)) + ftol_of rnd f))%R.
Proof.
  intros Hd HL HF Hp He Hdf Ec p q Hpg Hqg Hadj.
  destruct (limgrad_run d0 d1 d2 elen dfdx imax f Hd HL HF Hp He Hdf)
    as (n & act' & out' & b & E & St & W0 & W1 & B & _ & Hg & Ht).
  rewrite E in Ec. injection Ec as -> ->.
  apply (conv_upper rnd F Hr d0 d1 d2 _ _ Hg Ht out (proj2 (proj2 W1)) (B eq_refl) 1 p q Hpg Hqg Hadj).
Qed.

Lemma lower_envelope d0 d1 d2 elen dfdx imax f out :
  valid_dims d0 d1 d2 -> length f = d0 * d1 * d2 -> Forall F f -> (forall x, In x f -> (0 <= x)%R) ->
  (0 <= elen)%R -> (0 <= dfdx)%R ->
  limgrad rnd (Z.of_nat d0) (Z.of_nat d1) (Z.of_nat d2) elen dfdx imax f = Some out ->
  forall q, in_grid d0 d1 d2 q -> exists p, in_grid d0 d1 d2 p /\
    (iterR (gdist p q) (fun x => rnd (x + rnd (elen * dfdx))) (val d0 d1 f p) <= val d0 d1 out q)%R.
Proof.
  intros Hd HL HF Hp He Hdf Ec.
  destruct (limgrad_run d0 d1 d2 elen dfdx imax f Hd HL HF Hp He Hdf)
    as (n & act' & out' & b & E & St & W0 & W1 & B & _ & Hg & Ht).
  unfold limgrad in Ec. rewrite E in Ec. cbn in Ec. injection Ec as ->.
  refine (steps_justified rnd F Hr d0 d1 d2 _ _ Hg f _ _ _ HF St _).
  intros q Hq. exists q. split; [exact Hq|]. rewrite gdist_refl. cbn [iterR fld]. lra.
Qed.

Lemma upper_envelope d0 d1 d2 elen dfdx imax f out :
  valid_dims d0 d1 d2 -> length f = d0 * d1 * d2 -> Forall F f -> (forall x, In x f -> (0 <= x)%R) ->
  (0 <= elen)%R -> (0 <= dfdx)%R ->
  c_limgrad_full rnd (Z.of_nat d0) (Z.of_nat d1) (Z.of_nat d2) elen dfdx imax f = Some (out, true) ->
  forall p q, in_grid d0 d1 d2 p -> in_grid d0 d1 d2 q ->
  (val d0 d1 out q <= iterR (gdist p q) (fun x => rnd (rnd (x + rnd (elen * dfdx)) + ftol_of rnd f)) (val d0 d1 f p))%R.
Proof.
  intros Hd HL HF Hp He Hdf Ec p q Hpg Hqg.
  destruct (limgrad_run d0 d1 d2 elen dfdx imax f Hd HL HF Hp He Hdf)
    as (n & act' & out' & b & E & St & W0 & W1 & B & _ & Hg & Ht).
  rewrite E in Ec. injection Ec as -> ->.
  eapply Rle_trans; [apply (conv_upper rnd F Hr d0 d1 d2 _ _ Hg Ht out (proj2 (proj2 W1)) (B eq_refl) (gdist p q) p q Hpg Hqg eq_refl)|].
  pose proof (steps_decrease rnd F Hr _ _ _ _ _ Ht _ _ _ St (pos d0 d1 p)) as Hdec. cbn [fld] in Hdec.
  fold (val d0 d1 out p) in Hdec. fold (val d0 d1 f p) in Hdec.
  revert Hdec. generalize (gdist p q) (val d0 d1 out p) (val d0 d1 f p). intros k.
  induction k as [|k IH]; intros x y Hxy; cbn [iterR]; [exact Hxy|].
  apply (S2_mono rnd F Hr). apply IH. exact Hxy.
Qed.

(** No edge of the input violates the limit -> the input is returned (and the loop stops by convergence if imax>=2) *)
Lemma fixed_point d0 d1 d2 elen dfdx imax f :
  valid_dims d0 d1 d2 -> length f = d0 * d1 * d2 -> Forall F f -> (forall x, In x f -> (0 <= x)%R) ->
  (0 <= elen)%R -> (0 <= dfdx)%R ->
  (forall p q, in_grid d0 d1 d2 p -> in_grid d0 d1 d2 q -> adjacent p q ->
    (val d0 d1 f q <= rnd (rnd (val d0 d1 f p + rnd (elen * dfdx)) + ftol_of rnd f))%R) ->
  limgrad rnd (Z.of_nat d0) (Z.of_nat d1) (Z.of_nat d2) elen dfdx imax f = Some f.
Proof.
  intros Hd HL HF Hp He Hdf Hgr.
  destruct (limgrad_run d0 d1 d2 elen dfdx imax f Hd HL HF Hp He Hdf)
    as (n & act' & out' & b & E & St & W0 & W1 & B & _ & Hg & Ht).
  assert (Es : mkL out' act' = mkL f (repeat (-1)%Z (d0 * d1 * d2))).
  { eapply steps_none; [exact St|]. cbn [fld]. intros u v (p & q & Hpg & Hqg & Hadj & <- & <-) Hv.
    specialize (Hgr p q Hpg Hqg Hadj). unfold viol, S2, T in Hv. unfold val in Hgr. lra. }
  injection Es as -> _. unfold limgrad. rewrite E. reflexivity.
Qed.

End M.

(** ------- exact arithmetic: termination ------- *)
Definition idR : R -> R := fun x => x.

Lemma idR_rounding : is_rounding idR (fun _ => True).
Proof. unfold is_rounding, idR; auto. Qed.

Lemma steps_sum d0 d1 d2 g ftol n s s' :
  steps idR (fun _ => True) d0 d1 d2 g ftol n s s' ->
  (rsum (fld s') <= rsum (fld s) - INR n * ftol)%R.
Proof.
  induction 1 as [s|n s iter v u s' Hw He Hv Hs IH]; [cbn; lra|].
  destruct (edge_lt _ _ _ _ _ He) as [Lu Lv]. 
  eapply Rle_trans; [exact IH|]. unfold upd_state; cbn [fld].
  rewrite rsum_upd by (destruct Hw as [-> _]; exact Lv). rewrite S_INR.
  destruct Hv as [_ Hv]. unfold S2, T, idR in *. lra.
Qed.

Lemma terminates d0 d1 d2 elen dfdx imax f m :
  valid_dims d0 d1 d2 -> length f = d0 * d1 * d2 -> (forall x, In x f -> (0 < x)%R) ->
  (0 <= elen)%R -> (0 <= dfdx)%R -> is_min f m ->
  (INR imax >= 2 + (rsum f - INR (length f) * m) / (m * sqrt (1 / 10 ^ 9)))%R ->
  limgrad_converged idR (Z.of_nat d0) (Z.of_nat d1) (Z.of_nat d2) elen dfdx imax f.
Proof.
  intros Hd HL Hp He Hdf Hm Hmax.
  assert (HF : Forall (fun _ : R => True) f) by (apply Forall_forall; auto).
  destruct (limgrad_run idR (fun _ => True) idR_rounding d0 d1 d2 elen dfdx imax f Hd HL HF
     (fun x Hx => Rlt_le _ _ (Hp x Hx)) He Hdf)
    as (n & act' & out & b & E & St & W0 & W1 & _ & B & Hg & Ht).
  destruct b; [exists out; exact E|exfalso].
  specialize (B eq_refl).
  assert (Hne : f <> []) by (intros ->; destruct Hm as [[] _]).
  assert (Em : min_list f = m) by (eapply is_min_unique; [apply is_min_min_list; exact Hne|exact Hm]).
  assert (Eft : ftol_of idR f = (m * sqrt (1 / 10 ^ 9))%R) by (unfold ftol_of, idR; rewrite Em; reflexivity).
  pose proof (steps_sum _ _ _ _ _ _ _ _ St) as Hs. cbn [fld] in Hs.
  assert (Hlow : (INR (length out) * m <= rsum out)%R).
  { apply rsum_lower. intros x Hx.
    destruct (refines_only idR (fun _ => True) idR_rounding d0 d1 d2 elen dfdx imax f Hd HL HF
       (fun x Hx => Rlt_le _ _ (Hp x Hx)) He Hdf) as (o & Eo & _ & _ & Hmo).
    unfold limgrad in Eo. rewrite E in Eo. cbn in Eo. injection Eo as <-. apply (Hmo m Hm). exact Hx. }
  assert (HLo : length out = length f) by (destruct W1 as [W1 _]; cbn [fld] in W1; lia).
  assert (Hmpos : (0 < m)%R) by (apply Hp; apply Hm).
  assert (Hsq : (0 < sqrt (1 / 10 ^ 9))%R) by (apply sqrt_lt_R0; lra).
  rewrite Eft in Hs. set (t := (m * sqrt (1 / 10 ^ 9))%R) in *.
  assert (Htp : (0 < t)%R) by (unfold t; nra).
  rewrite HLo in Hlow.
  apply le_INR in B. rewrite plus_INR in B. cbn in B.
  assert (Hq : ((rsum f - INR (length f) * m) / t >= INR n)%R).
  { apply Rle_ge. apply Rmult_le_reg_r with t; [exact Htp|].
    unfold Rdiv. rewrite Rmult_assoc, Rinv_l by lra. lra. }
  lra.
Qed.

(** ------- the cap can cut the limiter short ------- *)
Section Chain.
Variable rnd : R -> R.
Variable F : R -> Prop.
Hypothesis Hr : is_rounding rnd F.
Variable N : nat.
Hypothesis HN : 0 < N.
Hypothesis HNb : (Z.of_nat N <= 2 ^ 31)%Z.
Variables g ftol B : R.
Hypothesis Hg : (0 <= g)%R.
Hypothesis Htol : (0 <= ftol)%R.

Notation WFc := (WF F N 1 1).

Lemma chain_stencil a : a < N ->
  stencil (Z.of_nat N) (Z.of_nat 1) (Z.of_nat 1) (Z.of_nat a) =
  map Z.of_nat [a; a; Nat.min (a + 1) (N - 1); a - 1; a; a].
Proof.
  intros Ha. assert (E : a = pos N 1 (a, 0, 0)) by (unfold pos; lia).
  rewrite E at 1. rewrite stencil_spec by (unfold in_grid; lia).
  unfold nbr_nodes, pos. cbn [map]. repeat (apply f_equal2; [lia|]). reflexivity.
Qed.

Lemma relax_frame iter s n1 n2 : WFc s -> n1 < N -> n2 < N ->
  exists s', relax rnd g ftol iter s (Z.of_nat n1) (Z.of_nat n2) = Some s' /\ WFc s' /\
    (forall i, i <> n1 -> i <> n2 -> nth i (fld s') 0%R = nth i (fld s) 0%R) /\
    (nth n1 (fld s) 0%R = nth n2 (fld s) 0%R -> s' = s).
Proof.
  intros HW H1 H2.
  destruct (relax_cases rnd F Hr N 1 1 g ftol Hg Htol iter s n1 n2 HW ltac:(lia) ltac:(lia))
    as [(E & _)|[(Hne & V & E)|(Hne & V & E)]].
  - exists s. auto.
  - exists (upd_state rnd g iter s n1 n2). split; [exact E|]. split; [apply upd_state_WF; auto; apply Hr|].
    split; [intros i Hi1 Hi2; unfold upd_state; cbn [fld]; apply nth_upd_neq; auto|].
    intros Heq. destruct V as [V _]. lra.
  - exists (upd_state rnd g iter s n2 n1). split; [exact E|]. split; [apply upd_state_WF; auto; apply Hr|].
    split; [intros i Hi1 Hi2; unfold upd_state; cbn [fld]; apply nth_upd_neq; auto|].
    intros Heq. destruct V as [V _]. lra.
Qed.

Definition low (K : nat) (s : lstate) : Prop := forall i, i <= K -> nth i (fld s) 0%R = B.

Lemma relax_all_frame iter n1 (lo : nat) : n1 < N -> lo <= n1 ->
  forall l s, WFc s -> (forall x, In x l -> x < N /\ lo <= x) ->
  exists s', relax_all rnd g ftol iter s (Z.of_nat n1) (map Z.of_nat l) = Some s' /\ WFc s' /\
    (forall i, i < lo -> nth i (fld s') 0%R = nth i (fld s) 0%R).
Proof.
  intros Hn1 Hlo. induction l as [|x l IH]; intros s HW Hl; cbn [map relax_all].
  - exists s. auto.
  - destruct (Hl x (or_introl eq_refl)) as [Hx1 Hx2].
    destruct (relax_frame iter s n1 x HW Hn1 Hx1) as (s1 & E1 & W1 & F1 & _).
    rewrite E1. cbn [obind].
    destruct (IH s1 W1 (fun y Hy => Hl y (or_intror Hy))) as (s2 & E2 & W2 & F2).
    exists s2. split; [exact E2|]. split; [exact W2|]. intros i Hi. rewrite F2 by exact Hi. apply F1; lia.
Qed.

Lemma relax_all_const iter n1 K : n1 < N -> n1 <= K ->
  forall l s, WFc s -> low K s -> (forall x, In x l -> x < N /\ x <= K) ->
  relax_all rnd g ftol iter s (Z.of_nat n1) (map Z.of_nat l) = Some s.
Proof.
  intros Hn1 HK. induction l as [|x l IH]; intros s HW Hlow Hl; cbn [map relax_all]; [reflexivity|].
  destruct (Hl x (or_introl eq_refl)) as [Hx1 Hx2].
  destruct (relax_frame iter s n1 x HW Hn1 Hx1) as (s1 & E1 & W1 & _ & S1).
  rewrite E1. cbn [obind]. rewrite S1 by (rewrite (Hlow n1 HK), (Hlow x Hx2); reflexivity).
  apply IH; auto. intros y Hy. apply Hl. right; exact Hy.
Qed.

Lemma sweep_high iter K : forall aidx s, WFc s -> (forall a, In a aidx -> K <= a < N) ->
  exists s', sweep rnd (Z.of_nat N) (Z.of_nat 1) (Z.of_nat 1) g ftol iter s aidx = Some s' /\ WFc s' /\
    (forall i, i + 2 <= K -> nth i (fld s') 0%R = nth i (fld s) 0%R).
Proof.
  induction aidx as [|a t IH]; intros s HW Ha; cbn [sweep].
  - exists s. auto.
  - pose proof (Ha a (or_introl eq_refl)) as Haa. rewrite chain_stencil by lia.
    destruct (relax_all_frame iter a (K - 1) ltac:(lia) ltac:(lia) [a; a; Nat.min (a + 1) (N - 1); a - 1; a; a] s HW)
      as (s1 & E1 & W1 & F1).
    + intros x Hx. cbn [In] in Hx. lia.
    + rewrite E1. cbn [obind].
      destruct (IH s1 W1 (fun y Hy => Ha y (or_intror Hy))) as (s2 & E2 & W2 & F2).
      exists s2. split; [exact E2|]. split; [exact W2|]. intros i Hi. rewrite F2 by exact Hi. apply F1. lia.
Qed.

Lemma sweep_low iter K : forall aidx s, WFc s -> low K s -> StronglySorted lt aidx ->
  (forall a, In a aidx -> a < N) ->
  exists s', sweep rnd (Z.of_nat N) (Z.of_nat 1) (Z.of_nat 1) g ftol iter s aidx = Some s' /\ WFc s' /\
    (forall i, i + 2 <= K -> nth i (fld s') 0%R = B).
Proof.
  induction aidx as [|a t IH]; intros s HW Hlow Hs Ha.
  - exists s. split; [reflexivity|]. split; [exact HW|]. intros i Hi. apply Hlow. lia.
  - inversion Hs as [|a' t' Hst Hfa]; subst.
    destruct (Nat.lt_ge_cases a K) as [Hlt|Hge].
    + cbn [sweep]. rewrite chain_stencil by (apply Ha; left; reflexivity).
      rewrite (relax_all_const iter a K); [|apply Ha; left; reflexivity|lia|exact HW|exact Hlow|].
      * cbn [obind]. apply IH; auto. intros b Hb. apply Ha. right; exact Hb.
      * intros x Hx. pose proof (Ha a (or_introl eq_refl)). cbn [In] in Hx. lia.
    + destruct (sweep_high iter K (a :: t) s HW) as (s' & E & W & Fr).
      * intros b [<-|Hb]; [split; [lia|apply Ha; left; reflexivity]|].
        rewrite Forall_forall in Hfa. specialize (Hfa b Hb). split; [lia|apply Ha; right; exact Hb].
      * exists s'. split; [exact E|]. split; [exact W|]. intros i Hi. rewrite Fr by exact Hi. apply Hlow. lia.
Qed.

Lemma findIndices_sorted A v : forall p0, StronglySorted lt (findIndices_from p0 A v).
Proof.
  induction A as [|x t IH]; intros p0; cbn [findIndices_from]; [constructor|].
  destruct (x =? v)%Z; [|apply IH]. constructor; [apply IH|].
  apply Forall_forall. intros y Hy. apply findIndices_from_spec in Hy. lia.
Qed.

Lemma loop_low : forall fuel iter s s' b K, WFc s -> low (K + 2 * fuel) s ->
  hj_loop rnd fuel (Z.of_nat N) (Z.of_nat 1) (Z.of_nat 1) g ftol iter s = Some (s', b) -> low K s'.
Proof.
  induction fuel as [|fuel IH]; intros iter s s' b K HW Hlow E; cbn [hj_loop] in E.
  - injection E as <- <-. intros i Hi. apply Hlow. lia.
  - destruct (findIndices (act s) (iter - 1)) as [|a t] eqn:Ef.
    + injection E as <- <-. intros i Hi. apply Hlow. lia.
    + destruct (sweep_low iter (K + 2 * S fuel) (a :: t) s HW Hlow) as (s1 & E1 & W1 & L1).
      * rewrite <- Ef. apply findIndices_sorted.
      * intros x Hx. rewrite <- Ef in Hx. apply findIndices_spec in Hx. destruct HW as (_ & L & _). lia.
      * rewrite E1 in E. cbn [obind] in E. eapply IH; [exact W1| |exact E].
        intros i Hi. apply L1. lia.
Qed.
End Chain.

Lemma sqrt_small : (0 < sqrt (1 / 10 ^ 9) < 1)%R.
Proof.
  split; [apply sqrt_lt_R0; lra|]. assert (H : (sqrt (1 / 10 ^ 9) < sqrt 1)%R) by (apply sqrt_lt_1; lra).
  rewrite sqrt_1 in H. exact H.
Qed.

Lemma cap_refuted_r rnd F imax : is_rounding rnd F -> (forall n, n <= 4 * imax + 5 -> F (INR n)) -> (Z.of_nat (2 * imax + 2) <= 2 ^ 31)%Z ->
  exists f out m,
    let N := (2 * imax + 2)%nat in
    length f = N /\ (forall x, In x f -> (0 < x)%R) /\ is_min f m /\
    limgrad rnd (Z.of_nat N) 1 1 1 1 imax f = Some out /\
    ~ graded N 1 1 (1 * 1 + m * sqrt (1 / 10 ^ 9)) out.
Proof.
  intros Hr HI HNb. set (N := (2 * imax + 2)%nat).
  set (B := INR (2 * N + 1)).
  set (f := repeat B (2 * imax + 1) ++ [1%R]).
  assert (HB : (1 <= B)%R) by (unfold B; change 1%R with (INR 1); apply le_INR; lia).
  assert (HLf : length f = N) by (unfold f, N; rewrite app_length, repeat_length; cbn; lia).
  assert (Hin : forall x, In x f -> x = B \/ x = 1%R).
  { intros x Hx. unfold f in Hx. apply in_app_iff in Hx. destruct Hx as [Hx|[Hx|[]]]; [left|right; auto].
    eapply repeat_spec; eauto. }
  assert (Hpos : forall x, In x f -> (0 < x)%R) by (intros x Hx; destruct (Hin x Hx); lra).
  assert (Hmin : is_min f 1%R).
  { split; [unfold f; apply in_app_iff; right; left; reflexivity|]. intros x Hx. destruct (Hin x Hx); lra. }
  assert (Hd : valid_dims N 1 1) by (unfold valid_dims; unfold N in *; lia).
  assert (HF : Forall F f).
  { apply Forall_forall. intros x Hx. destruct (Hin x Hx) as [-> | ->]; [apply HI; unfold N; lia | change 1%R with (INR 1); apply HI; lia]. }
  assert (HL' : length f = N * 1 * 1) by lia.
  destruct (limgrad_run rnd F Hr N 1 1 1%R 1%R imax f Hd HL' HF
     (fun x Hx => Rlt_le _ _ (Hpos x Hx)) ltac:(lra) ltac:(lra))
    as (n & act' & out & b & E & St & W0 & W1 & _ & _ & Hg & Ht).
  exists f, out, 1%R. cbv zeta. split; [exact HLf|]. split; [exact Hpos|]. split; [exact Hmin|].
  split; [change (obind (c_limgrad_full rnd (Z.of_nat N) (Z.of_nat 1) (Z.of_nat 1) 1 1 imax f)
                    (fun r => Some (fst r)) = Some out); rewrite E; reflexivity|].
  (* first value never touched *)
  assert (Hout0 : nth 0 out 0%R = B).
  { unfold c_limgrad_full in E.
    destruct (hj_loop rnd imax (Z.of_nat N) (Z.of_nat 1) (Z.of_nat 1) (rnd (1 * 1)%R) (ftol_of rnd f) 0
               (mkL f (repeat (-1)%Z (Z.to_nat (Z.of_nat N * Z.of_nat 1 * Z.of_nat 1))))) as [[s' b']|] eqn:EL;
      cbn [obind] in E; [|discriminate].
    cbn [fst snd] in E. injection E as <- <-.
    assert (Hw : Z.to_nat (Z.of_nat N * Z.of_nat 1 * Z.of_nat 1) = N * 1 * 1) by lia.
    rewrite Hw in EL.
    pose proof (loop_low rnd F Hr N ltac:(unfold N; lia) ltac:(unfold N in *; lia) (rnd (1 * 1)%R) (ftol_of rnd f) B Hg Ht
       imax 0%Z _ s' b' 0 W0) as Hl.
    apply (Hl); [|exact EL|lia].
    intros i Hi. cbn [fld]. unfold f. rewrite app_nth1 by (rewrite repeat_length; lia).
    apply nth_repeat_lt; lia. }
  assert (Hlast : (nth (N - 1) out 0 <= 1)%R).
  { pose proof (steps_decrease rnd F Hr _ _ _ _ _ Ht _ _ _ St (N - 1)) as Hdec. cbn [fld] in Hdec.
    replace (nth (N - 1) f 0%R) with 1%R in Hdec; [exact Hdec|].
    unfold f. rewrite app_nth2 by (rewrite repeat_length; unfold N; lia).
    rewrite repeat_length. replace (N - 1 - (2 * imax + 1)) with 0 by (unfold N; lia). reflexivity. }
  intros Hgr. set (tau := (1 * 1 + 1 * sqrt (1 / 10 ^ 9))%R) in *.
  assert (Htau : (0 < tau < 2)%R) by (unfold tau; clear; pose proof sqrt_small as Hq; revert Hq; generalize (sqrt (1 / 10 ^ 9)); intros q Hq; lra).
  assert (Hchain : forall k, k <= N - 1 -> (nth (N - 1 - k) out 0 <= 1 + INR k * tau)%R).
  { induction k as [|k IH]; intros Hk; [rewrite Nat.sub_0_r; change (INR 0) with 0%R; lra|].
    specialize (IH ltac:(lia)). rewrite S_INR.
    specialize (Hgr (N - 1 - S k, 0, 0)%nat (N - 1 - k, 0, 0)%nat).
    unfold in_grid, adjacent, gdist, adist, val, pos in Hgr.
    specialize (Hgr ltac:(lia) ltac:(lia) ltac:(lia)).
    replace (N - 1 - S k + N * (0 + 1 * 0)) with (N - 1 - S k) in Hgr by lia.
    replace (N - 1 - k + N * (0 + 1 * 0)) with (N - 1 - k) in Hgr by lia.
    apply Rabs_def2b in Hgr. lra. }
  specialize (Hchain (N - 1) ltac:(lia)). rewrite Nat.sub_diag, Hout0 in Hchain.
  unfold B in Hchain. rewrite plus_INR, mult_INR in Hchain.
  change (INR 1) with 1%R in Hchain. replace (INR 2) with 2%R in Hchain by (cbn; ring).
  assert (HNN : (INR (N - 1) <= INR N)%R) by (apply le_INR; lia).
  assert (HN1 : (1 <= INR N)%R) by (change 1%R with (INR 1); apply le_INR; unfold N; lia).
  assert (INR (N - 1) * tau <= INR N * tau)%R by (apply Rmult_le_compat_r; [apply Rlt_le|]; tauto).
  assert (INR N * tau < INR N * 2)%R by (apply Rmult_lt_compat_l; [lra|tauto]).
  lra.
Qed.

Lemma cap_refuted imax : (Z.of_nat (2 * imax + 2) <= 2 ^ 31)%Z ->
  exists f out m,
    let N := (2 * imax + 2)%nat in
    length f = N /\ (forall x, In x f -> (0 < x)%R) /\ is_min f m /\
    limgrad idR (Z.of_nat N) 1 1 1 1 imax f = Some out /\
    ~ graded N 1 1 (1 * 1 + m * sqrt (1 / 10 ^ 9)) out.
Proof. intro H. exact (cap_refuted_r idR _ imax idR_rounding (fun _ _ => I) H). Qed.

(** exact-arithmetic corollaries used in the property file *)
Lemma iter_add k g x : iterR k (fun y => y + g)%R x = (x + INR k * g)%R.
Proof. induction k as [|k IH]; cbn [iterR]; [cbn; ring|]. rewrite IH, S_INR. ring. Qed.
