(** The sweeps of laplacian2 converge to the balanced positions (C123) *)
From Coq Require Import List ZArith Reals Bool Arith Lia Lra.
From Verif Require Import Model.Base Model.SDF Model.Simplex Model.Mesh Model.Laplace Spec.MeshTopo Spec.Smooth
  Proofs.ListAux Proofs.MeshAux Proofs.EdgeProofs Proofs.TopoProofs Proofs.SDFMore Proofs.LaplaceProofs Proofs.LaplaceFixed.
Import ListNotations.
Local Open Scope R_scope.

Lemma sum_abs n g : Rabs (sum_below n g) <= sum_below n (fun u => Rabs (g u)).
Proof. induction n as [|n IH]; cbn [sum_below]; [rewrite Rabs_R0; lra|]. eapply Rle_trans; [apply Rabs_triang|]. lra. Qed.
Lemma sum_term n g u : (forall w, (w < n)%nat -> 0 <= g w) -> (u < n)%nat -> g u <= sum_below n g.
Proof.
  intros NN Lu. induction n as [|n IH]; [lia|]. cbn [sum_below].
  pose proof (sum_nonneg n g ltac:(intros; apply NN; lia)) as S0. pose proof (NN n ltac:(lia)) as Nn.
  destruct (Nat.eq_dec u n) as [->|N]; [lra|]. pose proof (IH ltac:(intros; apply NN; lia) ltac:(lia)). lra.
Qed.
Lemma links_ge1 t v u r : In r t -> In v r -> In u r -> v <> u -> 1 <= links t v u.
Proof.
  intros Hr Hv Hu N. pose proof (links_pos t v u r Hr Hv Hu N) as P. unfold links in *. destruct (v =? u)%nat; [lra|].
  assert (0 < entities_on [v; u] t)%nat as K by (apply INR_lt; cbn; lra). apply (le_INR 1). lia.
Qed.

Section Conv.
Variables (t : list (list nat)) (F : nat -> Prop) (DEC : forall v, F v \/ ~ F v) (n : nat) (HV : valid n t) (D : R) (D1 : 1 <= D)
  (HD : forall v, (v < n)%nat -> sum_below n (links t v) <= D).
Variable x : list (list R).
Variable HX : length x = n.
Variable HA : forall v, (v < n)%nat -> ~ F v -> averages t x x v.

Definition keepsF (p : list (list R)) : Prop := length p = n /\ forall v j, (v < n)%nat -> (j < 2)%nat -> F v -> coord p v j = coord x v j.
Lemma step_keeps p q : averaging_step t F p q -> keepsF p -> keepsF q.
Proof.
  intros [L ST] [LP K]. split; [congruence|]. intros v j Lv Lj Fv. destruct (ST v) as [_ [E _]]; [lia|]. unfold coord at 1. rewrite (E Fv). apply K; assumption.
Qed.
Lemma step_err p q v j : averaging_step t F p q -> length p = n -> (v < n)%nat -> (j < 2)%nat -> ~ F v ->
  0 < sum_below n (links t v) /\
  Rabs (coord q v j - coord x v j) * sum_below n (links t v) <= sum_below n (fun u => links t v u * Rabs (coord p u j - coord x u j)).
Proof.
  intros [L ST] LP Lv Lj NF. destruct (ST v) as [_ [_ A]]; [lia|]. destruct (A NF) as [WP E]. destruct (HA v Lv NF) as [_ E']. rewrite LP in *. rewrite HX in *.
  split; [exact WP|]. specialize (E j Lj). specialize (E' j Lj).
  rewrite <- (Rabs_pos_eq (sum_below n (links t v))) at 1 by lra. rewrite <- Rabs_mult.
  replace ((coord q v j - coord x v j) * sum_below n (links t v)) with (sum_below n (fun u => links t v u * (coord p u j - coord x u j))).
  - eapply Rle_trans; [apply sum_abs|]. apply sum_le. intros u Lu. cbv beta. rewrite Rabs_mult, (Rabs_pos_eq (links t v u)) by apply links_nonneg. lra.
  - rewrite (sum_ext n _ (fun u => links t v u * coord p u j + (-1) * (links t v u * coord x u j))) by (intros; ring).
    rewrite sum_plus, sum_scal, <- E, <- E'. ring.
Qed.
Lemma step_apart p q M : 0 <= M -> averaging_step t F p q -> keepsF p -> apart_at_most M p x -> apart_at_most M q x.
Proof.
  intros MP ST K H v j Lv Lj. pose proof (proj1 ST) as L. destruct K as [LP K]. destruct (DEC v) as [Fv|NF].
  - rewrite (proj2 (step_keeps p q ST (conj LP K))) by (try assumption; lia). rewrite Rminus_eq_0, Rabs_R0. exact MP.
  - destruct (step_err p q v j ST LP ltac:(lia) Lj NF) as [WP E]. apply (Rmult_le_reg_r (sum_below n (links t v))); [exact WP|].
    eapply Rle_trans; [exact E|]. rewrite <- sum_scal. apply sum_le. intros u Lu. rewrite (Rmult_comm M). apply Rmult_le_compat_l; [apply links_nonneg|].
    apply H; [lia|exact Lj].
Qed.
Lemma steps_apart M k p q : 0 <= M -> steps t F k p q -> keepsF p -> apart_at_most M p x -> apart_at_most M q x.
Proof.
  intros MP. induction 1 as [p|k p q r ST _ IH]; intros K A; [exact A|]. apply IH; [apply (step_keeps p q ST K)|apply (step_apart p q M MP ST K A)].
Qed.
(** the bound improves near F *)
Definition graded (M : R) (m : nat) (p : list (list R)) : Prop :=
  forall i v j, (i <= m)%nat -> (v < n)%nat -> (j < 2)%nat -> within t F i v -> Rabs (coord p v j - coord x v j) <= (1 - (/ D) ^ i) * M.
Lemma dpow i : 0 < (/ D) ^ i <= 1.
Proof.
  assert (0 < / D) by (apply Rinv_0_lt_compat; lra). assert (/ D <= 1) by (rewrite <- Rinv_1; apply Rinv_le_contravar; lra).
  split; [apply pow_lt; assumption|]. rewrite <- (pow1 i). apply pow_incr. lra.
Qed.
Lemma graded_0 M p : 0 <= M -> keepsF p -> graded M 0 p.
Proof.
  intros MP [LP K] i v j Li Lv Lj W. replace i with 0%nat in * by lia. inversion W; subst. rewrite K by assumption. rewrite Rminus_eq_0, Rabs_R0. cbn. lra.
Qed.
Lemma graded_step M m p q : 0 <= M -> averaging_step t F p q -> keepsF p -> apart_at_most M p x -> graded M m p -> graded M (S m) q.
Proof.
  intros MP ST K A G i v j Li Lv Lj W. pose proof (dpow i) as DP. destruct (DEC v) as [Fv|NF].
  - rewrite (proj2 (step_keeps p q ST K)) by assumption. rewrite Rminus_eq_0, Rabs_R0. apply Rmult_le_pos; lra.
  - inversion W as [? ? Fv|i' ? u r Hr Hv Hu N W']; subst; [contradiction|]. destruct K as [LP K].
    destruct (step_err p q v j ST LP Lv Lj NF) as [WP E]. pose proof (HV r u Hr Hu) as Lu. pose proof (HD v Lv) as WD.
    pose proof (G i' u j ltac:(lia) Lu Lj W') as Eu. pose proof (links_ge1 t v u r Hr Hv Hu N) as L1. pose proof (dpow i') as DP'.
    set (W0 := sum_below n (links t v)) in *. set (c := (/ D) ^ i') in *.
    assert (sum_below n (fun w => links t v w * Rabs (coord p w j - coord x w j)) <= W0 * M - c * M) as B.
    { assert (c * M <= sum_below n (fun w => links t v w * (M - Rabs (coord p w j - coord x w j)))) as B0.
      { eapply Rle_trans; [|apply (sum_term n (fun w => links t v w * (M - Rabs (coord p w j - coord x w j))) u)].
        - cbv beta. apply Rle_trans with (1 * (c * M)); [lra|]. apply Rmult_le_compat; [lra|apply Rmult_le_pos; lra|exact L1|lra].
        - intros w Lw. apply Rmult_le_pos; [apply links_nonneg|]. pose proof (A w j ltac:(lia) Lj). lra.
        - exact Lu. }
      rewrite (sum_ext n _ (fun w => M * links t v w + (-1) * (links t v w * Rabs (coord p w j - coord x w j)))) in B0 by (intros; ring).
      rewrite sum_plus, !sum_scal in B0. fold W0 in B0. lra. }
    cbn [pow]. fold c. apply (Rmult_le_reg_r W0); [exact WP|]. eapply Rle_trans; [exact E|]. eapply Rle_trans; [exact B|].
    assert (W0 * / D <= 1) as WD1. { apply (Rmult_le_reg_r D); [lra|]. rewrite Rmult_assoc, Rinv_l by lra. lra. }
    assert (0 <= c * M) as CM by (apply Rmult_le_pos; lra). pose proof (Rmult_le_compat_r (c * M) _ _ CM WD1). lra.
Qed.
Lemma steps_graded M k p q : 0 <= M -> steps t F k p q -> forall m, keepsF p -> apart_at_most M p x -> graded M m p ->
  keepsF q /\ apart_at_most M q x /\ graded M (m + k) q.
Proof.
  intros MP. induction 1 as [p|k p q r ST _ IH]; intros m K A G.
  - rewrite Nat.add_0_r. auto.
  - replace (m + S k)%nat with (S m + k)%nat by lia. apply IH; [apply (step_keeps p q ST K)|apply (step_apart p q M MP ST K A)|apply (graded_step M m p q MP ST K A G)].
Qed.
Lemma steps_split a b p r : steps t F (a + b) p r -> exists q, steps t F a p q /\ steps t F b q r.
Proof.
  revert p. induction a as [|a IH]; intros p H; [exists p; split; [apply steps_O|exact H]|]. cbn in H. inversion H as [|? ? q ? ST H']; subst.
  destruct (IH q H') as [q' [A B]]. exists q'. split; [eapply steps_S; eassumption|exact B].
Qed.
Lemma steps_geom m : (forall v, (v < n)%nat -> within t F m v) -> forall a b M p q, 0 <= M -> keepsF p -> apart_at_most M p x ->
  steps t F (a * m + b) p q -> apart_at_most ((1 - (/ D) ^ m) ^ a * M) q x.
Proof.
  intros HW. induction a as [|a IH]; intros b M p q MP K A ST.
  - cbn [pow]. rewrite Rmult_1_l. apply (steps_graded M _ p q MP ST 0 K A (graded_0 M p MP K)).
  - replace (S a * m + b)%nat with (m + (a * m + b))%nat in ST by (cbn; lia). destruct (steps_split _ _ _ _ ST) as [r [S1 S2]].
    destruct (steps_graded M _ p r MP S1 0 K A (graded_0 M p MP K)) as [K' [A' G]].
    replace ((1 - (/ D) ^ m) ^ S a * M) with ((1 - (/ D) ^ m) ^ a * ((1 - (/ D) ^ m) * M)) by (cbn; ring).
    pose proof (dpow m). apply (IH b _ r q); [apply Rmult_le_pos; lra|exact K'| |exact S2].
    intros v j Lv Lj. apply (G m v j); [lia| |exact Lj|apply HW]; rewrite <- (proj1 K'); exact Lv.
Qed.
End Conv.

(** triangles at a vertex *)
Lemma links_total n t v : triangles t -> valid n t -> sum_below n (links t v) = 2 * INR (entities_on [v] t).
Proof.
  intros HT HV. rewrite <- (nbrs_count n t v HT HV). induction t as [|r t IH]; [cbn; lra|].
  rewrite nbrs_cons, app_length, plus_INR. rewrite IH; [|intros r' Hr'; apply HT; right; exact Hr'|intros r' w Hr' Hw; apply (HV r' w); [right; exact Hr'|exact Hw]].
  destruct (HT r (or_introl eq_refl)) as [L3 ND]. destruct (row3 r L3) as [a [b [c ->]]].
  inversion ND as [|? ? Na ND1]; subst. inversion ND1 as [|? ? Nb ND2]; subst. cbn in Na, Nb.
  unfold entities_on. cbn [filter]. replace (forallb (has [a; b; c]) [v]) with (has [a; b; c] v) by (cbn [forallb]; rewrite andb_true_r; reflexivity).
  unfold has, nbrs. cbn [adj_entries flat_map map fst snd nth app filter existsb].
  rewrite !(Nat.eqb_sym v). destruct (a =? v)%nat eqn:Ea; destruct (b =? v)%nat eqn:Eb; destruct (c =? v)%nat eqn:Ec;
    rewrite ?Nat.eqb_eq in *; try (exfalso; lia); cbn [orb filter length map]; rewrite ?S_INR; cbn [INR]; try lra; cbn; lra.
Qed.
(** with tol <= 0 and a boundary, no sweep stops the loop *)
Lemma boundary_edge t v : triangles t -> on_boundary t v -> exists a b, on_boundary t a /\ on_boundary t b /\ In [a; b] (get_edges 2 t).
Proof.
  intros HT [f [INC [L2 [C1 Iv]]]]. destruct (row2 f L2) as [a [b ->]]. destruct (on_some _ _ C1) as [r [Hr HF]].
  assert (In a r) as Ia by (apply HF; left; reflexivity). assert (In b r) as Ib by (apply HF; right; left; reflexivity).
  assert (on_boundary t a /\ on_boundary t b) as [Ba Bb].
  { split; exists [a; b]; repeat split; try assumption; cbn; auto; exact (proj1 INC). }
  assert (edge_of r a b) as EO.
  { apply (In_nth _ _ O) in Ia, Ib. destruct Ia as [i [Li Ei]]. destruct Ib as [j [Lj Ej]]. exists i, j. repeat split; try assumption.
    intros ->. cbn in INC. destruct INC as [? _]. lia. }
  destruct (proj2 (get_edges_complete 2 t (or_introl eq_refl) (fun r Hr => proj1 (HT r Hr))) r a b Hr EO) as [H|H]; [exists a, b|exists b, a]; auto.
Qed.
Lemma nth_error_combine {A B} (l : list A) (l' : list B) x y k : nth_error l k = Some x -> nth_error l' k = Some y -> nth_error (combine l l') k = Some (x, y).
Proof. revert l' k. induction l as [|a l IH]; intros [|b l'] [|k]; cbn; intros H H'; try discriminate; [congruence|apply IH; assumption]. Qed.
Lemma no_stop es tol p q a b : tol <= 0 -> In [a; b] es -> nth a q [] = nth a p [] -> nth b q [] = nth b p [] ->
  Rltb (max_list (map2 (fun ln l => (ln - l) / ln) (edge_lens es q) (edge_lens es p))) tol = false.
Proof.
  intros T I Ea Eb. apply Rltb_false. apply Rle_trans with 0; [exact T|]. apply max_list_ge. unfold map2. apply in_map_iff.
  destruct (In_nth_error _ _ I) as [k Hk].
  pose (len := fun (p : list (list R)) (e : list nat) => let l := sub_len (nth (nth 0 e O) p []) (nth (nth 1 e O) p []) in if Rltb l eps52 then eps52 else l).
  exists (len q [a; b], len p [a; b]). split.
  - cbn [fst snd]. replace (len q [a; b]) with (len p [a; b]) by (unfold len; cbn [nth]; rewrite Ea, Eb; reflexivity).
    unfold Rdiv. rewrite Rminus_eq_0. ring.
  - apply (nth_error_In _ k). apply nth_error_combine; unfold edge_lens; fold (len q) (len p); apply map_nth_error; exact Hk.
Qed.
Lemma loop_all t fx F es tol a b : triangles t -> (forall v, In v fx <-> F v) -> tol <= 0 -> In [a; b] es -> F a -> F b -> forall k p,
  valid (length p) t -> (a < length p)%nat -> (b < length p)%nat -> (forall x, In x p -> length x = 2%nat) -> (forall v, (v < length p)%nat -> exists r, In r t /\ In v r) ->
  steps t F k p (lap_loop k t fx es tol (edge_lens es p) p).
Proof.
  intros HT HF T IE Fa Fb. induction k as [|k IH]; intros p HV La Lb HP HU; [apply steps_O|]. cbn [lap_loop].
  pose proof (sweep_step t fx p F HT HV HP HU HF) as ST.
  rewrite (no_stop es tol p (lap_sweep t fx p) a b T IE).
  - eapply steps_S; [exact ST|]. apply IH; rewrite ?sweep_length; try assumption. apply sweep_rows2, HP.
  - apply (proj2 ST a La), Fa.
  - apply (proj2 ST b Lb), Fb.
Qed.
Lemma laplacian2_all uniq p t k tol pfix : uniq_ok uniq -> triangles t -> valid (length p) t -> (forall x, In x p -> length x = 2%nat) ->
  (forall x, In x (asked pfix) -> length x = 2%nat) -> (forall v, (v < length p)%nat -> exists r, In r t /\ In v r) ->
  (exists v, on_boundary t v) -> pfix <> Some [] -> tol <= 0 ->
  exists p', laplacian2 uniq p t k tol pfix = Ok (p', t) /\ steps t (held t p pfix) k p p'.
Proof.
  intros HU HT HV HP HQ U [vb Hb] NF T. unfold laplacian2. destruct (existsb _ (seq 0 (length p))) eqn:E.
  { apply (unused_test p t HT) in E. destruct E as [v [L H]]. destruct (U v L) as [r [Hr Hv]]. destruct (H r Hr Hv). }
  assert (forall v, on_boundary t v -> (v < length p)%nat) as BL.
  { intros v [f [_ [_ [C F]]]]. destruct (on_some f t C) as [r [Hr HF]]. apply (HV r v Hr (HF v F)). }
  assert (p <> []) as NP by (intros ->; specialize (BL vb Hb); cbn in BL; lia).
  fold (asked pfix). pose proof (fixed_mem uniq t p pfix HU HT HP NP HQ) as FM.
  pose proof (proj2 (proj2 (boundary_vertices_spec uniq 2 t (or_introl eq_refl) HU HT) vb) Hb) as IB.
  destruct (boundary_edge t vb HT Hb) as [a [b [Ba [Bb IE]]]].
  pose proof (loop_all t _ _ (get_edges 2 t) tol a b HT FM T IE (or_introl Ba) (or_introl Bb) k p HV (BL a Ba) (BL b Bb) HP U) as ST.
  destruct (get_boundary_vertices uniq 2 t) as [|b0 bs]; [destruct IB|].
  destruct pfix as [[|]|]; try congruence; destruct k; eexists; (split; [reflexivity|exact ST]).
Qed.
(** a bound on chains for finitely many vertices *)
Lemma within_mono t F n m v : within t F n v -> (n <= m)%nat -> within t F m v.
Proof.
  intros H. revert m. induction H as [n v Fv|n v u r Hr Hv Hu N W IH]; intros m L; [apply within_here, Fv|].
  destruct m as [|m]; [lia|]. apply (within_step t F m v u r); try assumption. apply IH. lia.
Qed.
Lemma reaches_within t v : reaches_boundary t v -> exists n, within t (on_boundary t) n v.
Proof.
  induction 1 as [v B|v u r Hr Hv Hu N _ [n IH]]; [exists 0%nat; apply within_here, B|]. exists (S n). apply (within_step t _ n v u r); assumption.
Qed.
Lemma reaches_bound t n : (forall v, (v < n)%nat -> reaches_boundary t v) -> exists m, forall v, (v < n)%nat -> within t (on_boundary t) m v.
Proof.
  induction n as [|n IH]; intros H; [exists 0%nat; intros; lia|]. destruct IH as [m Hm]; [intros; apply H; lia|].
  destruct (reaches_within t n (H n ltac:(lia))) as [k Hk]. exists (m + k)%nat. intros v Lv.
  destruct (Nat.eq_dec v n) as [->|N]; [apply (within_mono t _ k); [exact Hk|lia]|apply (within_mono t _ m); [apply Hm; lia|lia]].
Qed.
Lemma apart_bound p x : exists M, 0 <= M /\ apart_at_most M p x.
Proof.
  exists (sum_below (length p) (fun v => Rabs (coord p v 0 - coord x v 0) + Rabs (coord p v 1 - coord x v 1))).
  assert (forall v, 0 <= Rabs (coord p v 0 - coord x v 0) + Rabs (coord p v 1 - coord x v 1)) as NN
    by (intros v; apply Rplus_le_le_0_compat; apply Rabs_pos).
  split; [apply sum_nonneg; intros; apply NN|]. intros v j Lv Lj.
  eapply Rle_trans; [|apply (sum_term (length p) (fun v => Rabs (coord p v 0 - coord x v 0) + Rabs (coord p v 1 - coord x v 1)) v (fun w _ => NN w) Lv)].
  cbv beta. pose proof (Rabs_pos (coord p v 0 - coord x v 0)). pose proof (Rabs_pos (coord p v 1 - coord x v 1)).
  destruct j as [|[|j]]; [lra|lra|lia].
Qed.
