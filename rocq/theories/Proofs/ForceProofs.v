From Coq Require Import Reals List Arith Bool Lra Lia Permutation.
From Verif Require Import Model.Base Model.SDF Model.Simplex Model.Mesh Model.Laplace Model.Forces Spec.MeshTopo Spec.Bars.
From Verif Require Import Proofs.ListAux Proofs.MeshAux Proofs.EdgeProofs.
Import ListNotations.
Local Open Scope R_scope.

(** ---- sums ---- *)
Lemma total_ext {A} (f g : A -> R) l : (forall x, In x l -> f x = g x) -> total (map f l) = total (map g l).
Proof. intros H. rewrite (map_ext_in f g l H). reflexivity. Qed.
Lemma total_plus {A} (f g : A -> R) l : total (map (fun x => f x + g x) l) = total (map f l) + total (map g l).
Proof. induction l as [|x l IH]; cbn [map]; unfold total in *; cbn [fold_right]; [lra|rewrite IH; lra]. Qed.
Lemma total_scal {A} (c : R) (f : A -> R) l : total (map (fun x => c * f x) l) = c * total (map f l).
Proof. induction l as [|x l IH]; cbn [map]; unfold total in *; cbn [fold_right]; [lra|rewrite IH; lra]. Qed.
Lemma total_zero {A} (f : A -> R) l : (forall x, In x l -> f x = 0) -> total (map f l) = 0.
Proof. induction l as [|x l IH]; intros H; cbn [map]; unfold total in *; cbn [fold_right]; [reflexivity|]. rewrite IH, (H x); [lra|left; reflexivity|]. intros y Hy. apply H. right. exact Hy. Qed.
Lemma total_swap {A B} (f : A -> B -> R) l m : total (map (fun a => total (map (f a) m)) l) = total (map (fun b => total (map (fun a => f a b) l)) m).
Proof.
  induction l as [|a l IH]; cbn [map].
  - symmetry. apply total_zero. reflexivity.
  - rewrite total_plus with (f := fun b => f a b) (g := fun b => total (map (fun a => f a b) l)). unfold total in *. cbn [fold_right]. rewrite IH. reflexivity.
Qed.
Lemma total_perm l m : Permutation l m -> total l = total m.
Proof. induction 1; unfold total in *; cbn [fold_right] in *; lra. Qed.
Lemma total_pos {A} (f : A -> R) l : l <> [] -> (forall x, In x l -> 0 < f x) -> 0 < total (map f l).
Proof.
  induction l as [|x l IH]; intros H HP; [congruence|]. cbn [map]. unfold total in *. cbn [fold_right].
  assert (0 < f x) by (apply HP; left; reflexivity). destruct l as [|y l]; [cbn; lra|].
  assert (0 < fold_right Rplus 0 (map f (y :: l))) by (apply IH; [discriminate|intros z Hz; apply HP; right; exact Hz]). lra.
Qed.
Lemma total_lt {A} (f g : A -> R) l : total (map f l) < total (map g l) -> exists x, In x l /\ f x < g x.
Proof.
  induction l as [|x l IH]; cbn [map]; unfold total in *; cbn [fold_right]; [lra|]. intros H.
  destruct (Rlt_dec (f x) (g x)) as [L|N]; [exists x; split; [left; reflexivity|exact L]|].
  destruct IH as [y [I L]]; [lra|]. exists y. split; [right; exact I|exact L].
Qed.
Lemma total_indicator (f : nat -> R) (a n : nat) : (a < n)%nat -> total (map (fun v => if (a =? v)%nat then f v else 0) (seq 0 n)) = f a.
Proof.
  intros H. assert (In a (seq 0 n)) as I by (apply in_seq; lia). pose proof (seq_NoDup n 0) as N.
  induction (seq 0 n) as [|x l IH]; [destruct I|]. inversion N as [|? ? N1 N2]; subst. cbn [map]. unfold total in *. cbn [fold_right].
  destruct (Nat.eqb_spec a x) as [->|D].
  - pose proof (total_zero (fun v => if (x =? v)%nat then f v else 0) l) as Z. unfold total in Z. rewrite Z; [lra|]. intros y Hy. destruct (Nat.eqb_spec x y); [subst; contradiction|reflexivity].
  - rewrite IH; [lra| |exact N2]. destruct I; [congruence|assumption].
Qed.
Lemma total_filter {A} (f : A -> R) (b : A -> bool) l : total (map (fun x => if b x then f x else 0) l) = total (map f (filter b l)).
Proof. induction l as [|x l IH]; [reflexivity|]. cbn [map filter]. destruct (b x); cbn [map]; unfold total in *; cbn [fold_right]; rewrite IH; lra. Qed.

(** ---- rows as functions of the axis ---- *)
Lemma map2_nth {A B C} (f : A -> B -> C) l m i d da db : length l = length m -> (i < length l)%nat ->
  nth i (map2 f l m) d = f (nth i l da) (nth i m db).
Proof.
  intros E H. unfold map2. rewrite nth_map' with (d' := (da, db)); [|rewrite combine_length; lia]. rewrite combine_nth by exact E. reflexivity.
Qed.
Lemma map2_length {A B C} (f : A -> B -> C) l m : length l = length m -> length (map2 f l m) = length l.
Proof. intros E. unfold map2. rewrite map_length, combine_length. lia. Qed.
Lemma list_seq {A} (l : list A) d : l = map (fun i => nth i l d) (seq 0 (length l)).
Proof.
  apply nth_ext with (d := d) (d' := d); [rewrite map_length, seq_length; reflexivity|]. intros i H.
  rewrite nth_map' with (d' := O) by (rewrite seq_length; exact H). rewrite seq_nth by exact H. reflexivity.
Qed.
Lemma map2_seq {C} (f : R -> R -> C) dim l m : length l = dim -> length m = dim ->
  map2 f l m = map (fun j => f (nth j l 0) (nth j m 0)) (seq 0 dim).
Proof.
  intros H1 H2. destruct dim as [|k]; [destruct l, m; try discriminate; reflexivity|]. set (dim := S k) in *.
  pose (d := f (nth 0 l 0) (nth 0 m 0)). apply nth_ext with (d := d) (d' := d).
  - rewrite map2_length, map_length, seq_length by congruence. congruence.
  - intros i H. rewrite map2_length in H by congruence. rewrite map2_nth with (da := 0) (db := 0) by lia.
    rewrite nth_map' with (d' := O) by (rewrite seq_length; lia). rewrite seq_nth by lia. reflexivity.
Qed.

Section Forces.
Variables (dim : nat) (p : list (list R)) (t : list (list nat)) (fh : list R -> R) (m : R).
Hypothesis D : dim = 2%nat \/ dim = 3%nat.
Hypothesis HP : Forall (fun x => length x = dim) p.
Hypothesis HT : forall r, In r t -> simplex (S dim) r.
Hypothesis HV : forall r v, In r t -> In v r -> (v < length p)%nat.
Hypothesis HF : forall x, 0 < fh x.

Let es := bars dim t.

Lemma row_len v : (v < length p)%nat -> length (nth v p []) = dim.
Proof. intros H. rewrite Forall_forall in HP. apply HP, nth_In, H. Qed.
Lemma is_bar_lt a b : is_bar t a b -> (a < length p)%nat /\ (b < length p)%nat.
Proof.
  intros (r & I & i & j & Hi & Hj & _ & <- & <-). split; apply (HV r _ I), nth_In; assumption.
Qed.
Lemma is_bar_neq a b : is_bar t a b -> a <> b.
Proof.
  intros (r & I & i & j & Hi & Hj & N & <- & <-). destruct (HT r I) as [_ ND]. intros E. apply N. eapply NoDup_nth; eassumption.
Qed.
Lemma is_bar_sym a b : is_bar t a b -> is_bar t b a.
Proof. intros (r & I & H). exists r. split; [exact I|apply edge_of_sym, H]. Qed.
Lemma es_bars : all_bars t es.
Proof.
  destruct (mesh_unique_edges dim t D) as (_ & ND & H); [intros r I; apply HT, I|]. split; [exact ND|]. intros a b. unfold es, bars. rewrite H.
  split; intros [L B]; (split; [|exact B]); [|lia]. assert (a <> b) by (apply is_bar_neq; exact B). lia.
Qed.
Lemma es_valid e : In e es -> (fst e < length p)%nat /\ (snd e < length p)%nat /\ (fst e < snd e)%nat.
Proof. destruct e as [a b]. intros I. apply es_bars in I. destruct I as [L B]. apply is_bar_lt in B. cbn. lia. Qed.
Lemma sub_len_gap a b : (a < length p)%nat -> (b < length p)%nat -> sub_len (nth a p []) (nth b p []) = gap dim p a b.
Proof.
  intros Ha Hb. unfold sub_len, gap. rewrite (map2_seq _ dim) by (apply row_len; assumption). rewrite map_map. f_equal. unfold total. f_equal.
  apply map_ext. intros j. unfold coord. ring.
Qed.
Lemma bar_len_spec a b : (a < length p)%nat -> (b < length p)%nat -> bar_len p (a, b) = bar_length dim p a b.
Proof.
  intros Ha Hb. unfold bar_len, bar_length, eps52. cbn [fst snd]. rewrite sub_len_gap by assumption. unfold Reqb. destruct (Req_EM_T _ _); reflexivity.
Qed.
Lemma gap_sym a b : gap dim p a b = gap dim p b a.
Proof. unfold gap. f_equal. apply total_ext. intros j _. ring. Qed.
Lemma bar_length_sym a b : bar_length dim p a b = bar_length dim p b a.
Proof. unfold bar_length. rewrite gap_sym. reflexivity. Qed.
Lemma bar_length_pos a b : 0 < bar_length dim p a b.
Proof.
  unfold bar_length. destruct (Req_EM_T _ _) as [_|N]; [apply Rinv_0_lt_compat, pow_lt; lra|]. unfold gap in *. pose proof (sqrt_pos (total (map (fun j => (coord p a j - coord p b j) ^ 2) (seq 0 dim)))). lra.
Qed.
Lemma mid_spec a b : (a < length p)%nat -> (b < length p)%nat -> mid p (a, b) = middle dim p a b.
Proof. intros Ha Hb. unfold mid, middle, coord. cbn [fst snd]. rewrite (map2_seq _ dim) by (apply row_len; assumption). reflexivity. Qed.
Lemma middle_sym a b : middle dim p a b = middle dim p b a.
Proof. unfold middle. apply map_ext. intros j. lra. Qed.

(** the scale factor *)
Definition the_scale := scale dim fh p es.
Lemma powsum_pos (f : nat * nat -> R) : es <> [] -> (forall e, In e es -> 0 < f e) -> 0 < powsum dim (map f es).
Proof. intros N H. unfold powsum. rewrite map_map. apply total_pos; [exact N|]. intros e I. apply pow_lt, H, I. Qed.
Lemma scale_pow : es <> [] -> 0 < the_scale /\
  the_scale ^ dim * total (map (fun e => fh (middle dim p (fst e) (snd e)) ^ dim) es) = total (map (fun e => bar_length dim p (fst e) (snd e) ^ dim) es).
Proof.
  intros N. unfold the_scale, scale.
  set (A := powsum dim (map (bar_len p) es)). set (B := powsum dim (map (fun e => fh (mid p e)) es)).
  assert (0 < A) as HA. { apply powsum_pos; [exact N|]. intros [a b] I. apply es_valid in I. cbn in I. rewrite bar_len_spec by lia. apply bar_length_pos. }
  assert (0 < B) as HB. { apply powsum_pos; [exact N|]. intros e _. apply HF. }
  assert (0 < A / B) as HAB by (apply Rdiv_lt_0_compat; assumption).
  split; [unfold Rpower; apply exp_pos|].
  assert (Rpower (A / B) (1 / INR dim) ^ dim = A / B) as ->.
  { rewrite <- Rpower_pow by (unfold Rpower; apply exp_pos). rewrite Rpower_mult. assert (INR dim <> 0) by (apply not_0_INR; lia).
    replace (1 / INR dim * INR dim) with 1 by (field; assumption). apply Rpower_1. exact HAB. }
  assert (total (map (fun e => fh (middle dim p (fst e) (snd e)) ^ dim) es) = B) as ->.
  { unfold B, powsum. rewrite map_map. apply total_ext. intros [a b] I. apply es_valid in I. cbn in I. rewrite mid_spec by lia. reflexivity. }
  assert (total (map (fun e => bar_length dim p (fst e) (snd e) ^ dim) es) = A) as ->.
  { unfold A, powsum. rewrite map_map. apply total_ext. intros [a b] I. apply es_valid in I. cbn in I. rewrite bar_len_spec by lia. reflexivity. }
  field. lra.
Qed.

(** the weight of a bar *)
Definition weight (a b : nat) : R := push (bar_length dim p a b) (m * the_scale * fh (middle dim p a b)).
Lemma weight_sym a b : weight a b = weight b a.
Proof. unfold weight. rewrite bar_length_sym, middle_sym. reflexivity. Qed.
Lemma force_vec_spec e j : In e es -> (j < dim)%nat ->
  force_vec dim fh m p es e j = weight (fst e) (snd e) * (coord p (fst e) j - coord p (snd e) j).
Proof.
  destruct e as [a b]. intros I Hj. apply es_valid in I. cbn [fst snd] in *. unfold force_vec, weight, push, bar_force, desired, bar_vec. cbn [fst snd].
  rewrite bar_len_spec, mid_spec by lia. rewrite map2_nth with (da := 0) (db := 0) by (rewrite !row_len by lia; lia).
  fold (coord p a j). fold (coord p b j). f_equal. f_equal. fold the_scale.
  replace (fh (middle dim p a b) * m * the_scale) with (m * the_scale * fh (middle dim p a b)) by ring.
  unfold Rltb, Rmax. destruct (Rlt_dec _ _), (Rle_dec _ _); lra.
Qed.
Lemma force_at v j : (v < length p)%nat -> (j < dim)%nat ->
  nth j (nth v (compute_forces dim fh m p t) []) 0 =
  total (map (fun e => (if (fst e =? v)%nat then weight (fst e) (snd e) * (coord p (fst e) j - coord p (snd e) j) else 0)
    + (if (snd e =? v)%nat then - (weight (fst e) (snd e) * (coord p (fst e) j - coord p (snd e) j)) else 0)) es).
Proof.
  intros Hv Hj. unfold compute_forces. fold es. rewrite nth_map' with (d' := O) by (rewrite seq_length; exact Hv). rewrite seq_nth by exact Hv.
  rewrite nth_map' with (d' := O) by (rewrite seq_length; exact Hj). rewrite seq_nth by exact Hj. cbn [plus].
  apply total_ext. intros e I. rewrite force_vec_spec by assumption. reflexivity.
Qed.
Lemma forces_length : length (compute_forces dim fh m p t) = length p.
Proof. unfold compute_forces. rewrite map_length, seq_length. reflexivity. Qed.
Lemma force_row_length v : (v < length p)%nat -> length (nth v (compute_forces dim fh m p t) []) = dim.
Proof. intros H. unfold compute_forces. rewrite nth_map' with (d' := O) by (rewrite seq_length; exact H). rewrite map_length, seq_length. reflexivity. Qed.

(** the forces cancel *)
Lemma forces_cancel j : (j < dim)%nat -> total (map (fun v => nth j (nth v (compute_forces dim fh m p t) []) 0) (seq 0 (length p))) = 0.
Proof.
  intros Hj. rewrite (total_ext _ (fun v => total (map (fun e => (if (fst e =? v)%nat then weight (fst e) (snd e) * (coord p (fst e) j - coord p (snd e) j) else 0)
    + (if (snd e =? v)%nat then - (weight (fst e) (snd e) * (coord p (fst e) j - coord p (snd e) j)) else 0)) es))).
  - rewrite (total_swap (fun v e => (if (fst e =? v)%nat then weight (fst e) (snd e) * (coord p (fst e) j - coord p (snd e) j) else 0)
      + (if (snd e =? v)%nat then - (weight (fst e) (snd e) * (coord p (fst e) j - coord p (snd e) j)) else 0))).
    apply total_zero. intros e I. apply es_valid in I. destruct I as (L1 & L2 & _). rewrite total_plus.
    rewrite (total_indicator (fun _ => weight (fst e) (snd e) * (coord p (fst e) j - coord p (snd e) j)) _ _ L1).
    rewrite (total_indicator (fun _ => - (weight (fst e) (snd e) * (coord p (fst e) j - coord p (snd e) j))) _ _ L2). lra.
  - intros v I. apply in_seq in I. apply force_at; [lia|exact Hj].
Qed.

(** the force on one vertex as a sum over its neighbours *)
Lemma force_neighbours v j N : (v < length p)%nat -> (j < dim)%nat -> NoDup N -> (forall u, In u N <-> is_bar t v u) ->
  nth j (nth v (compute_forces dim fh m p t) []) 0 = total (map (fun u => weight v u * (coord p v j - coord p u j)) N).
Proof.
  intros Hv Hj HN HU. rewrite force_at by assumption.
  rewrite total_plus, !total_filter.
  set (F1 := filter (fun e : nat * nat => (fst e =? v)%nat) es). set (F2 := filter (fun e : nat * nat => (snd e =? v)%nat) es).
  pose proof es_bars as [ND EI].
  assert (Permutation (map snd F1 ++ map fst F2) N) as PM.
  { apply NoDup_Permutation; [|exact HN|].
    - apply NoDup_app_intro.
      + assert (NoDup F1) as N1 by (apply NoDup_filter, ND). assert (forall e, In e F1 -> fst e = v) as K by (intros e I; apply filter_In in I; apply Nat.eqb_eq, I).
        induction N1 as [|[a b] l N0 N1 IH]; [constructor|]. cbn [map]. constructor; [|apply IH; intros e I; apply K; right; exact I].
        intros I. apply in_map_iff in I. destruct I as [[a' b'] [E I]]. cbn in E. subst b'. apply N0. replace a with a'; [exact I|].
        pose proof (K (a', b) (or_intror I)) as K1. pose proof (K (a, b) (or_introl eq_refl)) as K2. cbn in *. congruence.
      + assert (NoDup F2) as N1 by (apply NoDup_filter, ND). assert (forall e, In e F2 -> snd e = v) as K by (intros e I; apply filter_In in I; apply Nat.eqb_eq, I).
        induction N1 as [|[a b] l N0 N1 IH]; [constructor|]. cbn [map]. constructor; [|apply IH; intros e I; apply K; right; exact I].
        intros I. apply in_map_iff in I. destruct I as [[a' b'] [E I]]. cbn in E. subst a'. apply N0. replace b with b'; [exact I|].
        pose proof (K (a, b') (or_intror I)) as K1. pose proof (K (a, b) (or_introl eq_refl)) as K2. cbn in *. congruence.
      + intros u I1 I2. apply in_map_iff in I1, I2. destruct I1 as [[a b] [E1 I1]], I2 as [[c d] [E2 I2]]. apply filter_In in I1, I2. destruct I1 as [I1 V1], I2 as [I2 V2].
        apply Nat.eqb_eq in V1, V2. apply EI in I1, I2. cbn in *. subst. lia.
    - intros u. rewrite in_app_iff, !in_map_iff, HU. split.
      + intros [[[a b] [E I]] | [[a b] [E I]]]; apply filter_In in I; destruct I as [I V]; apply Nat.eqb_eq in V; apply EI in I; cbn in *; subst; [apply I|apply is_bar_sym, I].
      + intros B. assert (v <> u) by (apply is_bar_neq, B). destruct (lt_dec v u) as [L|G].
        * left. exists (v, u). split; [reflexivity|]. apply filter_In. split; [apply EI; split; assumption|apply Nat.eqb_refl].
        * right. exists (u, v). split; [reflexivity|]. apply filter_In. split; [apply EI; split; [lia|apply is_bar_sym, B]|apply Nat.eqb_refl]. }
  rewrite <- (total_perm _ _ (Permutation_map (fun u => weight v u * (coord p v j - coord p u j)) PM)).
  rewrite map_app. assert (forall l1 l2, total (l1 ++ l2) = total l1 + total l2) as TA by (induction l1 as [|x l1 IH]; intros l2; unfold total in *; cbn [app fold_right]; [lra|rewrite IH; lra]).
  rewrite TA, !map_map. f_equal; apply total_ext; intros e I; apply filter_In in I; destruct I as [_ V]; apply Nat.eqb_eq in V; subst v; [reflexivity|].
  rewrite (weight_sym (snd e)). lra.
Qed.

(** a mesh with a bar always has a compressed bar *)
Lemma compressed : 1 < m -> es <> [] -> exists a b, is_bar t a b /\ bar_length dim p a b < m * the_scale * fh (middle dim p a b).
Proof.
  intros Hm N. destruct (scale_pow N) as [S1 S2].
  set (T := total (map (fun e => bar_length dim p (fst e) (snd e) ^ dim) es)) in *.
  assert (0 < T) as HT'. { apply total_pos; [exact N|]. intros e _. apply pow_lt, bar_length_pos. }
  assert (total (map (fun e => (m * the_scale * fh (middle dim p (fst e) (snd e))) ^ dim) es) = m ^ dim * T) as E.
  { rewrite <- S2, <- Rmult_assoc, <- total_scal. apply total_ext. intros e _. rewrite !Rpow_mult_distr. ring. }
  assert (1 < m ^ dim) as M1 by (apply Rlt_pow_R1; [exact Hm|lia]).
  destruct (total_lt (fun e => bar_length dim p (fst e) (snd e) ^ dim) (fun e => (m * the_scale * fh (middle dim p (fst e) (snd e))) ^ dim) es) as [[a b] [I L]].
  - rewrite E. fold T. nra.
  - exists a, b. split; [apply es_bars in I; apply I|]. cbn [fst snd] in L. apply Rnot_le_lt. intros C. apply Rlt_not_le in L. apply L. apply pow_incr. split; [|exact C].
    left. repeat apply Rmult_lt_0_compat; [lra|exact S1|apply HF].
Qed.
Lemma es_length E : all_bars t E -> Permutation E es.
Proof.
  intros [N H]. pose proof es_bars as [N' H']. apply NoDup_Permutation; [exact N|exact N'|]. intros [a b]. rewrite H, H'. reflexivity.
Qed.
End Forces.

Lemma zero_rows_nth ifix F v d : (v < length F)%nat -> length (nth v F d) = length (nth v F []) ->
  nth v (zero_rows ifix F) d = if existsb (Nat.eqb v) ifix then map (fun _ => 0) (nth v F []) else nth v F [].
Proof. intros H _. unfold zero_rows. rewrite nth_map' with (d' := O) by (rewrite seq_length; exact H). rewrite seq_nth by exact H. reflexivity. Qed.
Lemma zero_rows_length ifix F : length (zero_rows ifix F) = length F.
Proof. unfold zero_rows. rewrite map_length, seq_length. reflexivity. Qed.
Lemma force_step_spec dim p t fh m dt ifix : Forall (fun x => length x = dim) p ->
  length (force_step dim fh m dt ifix p t) = length p /\
  (forall v, (v < length p)%nat -> length (nth v (force_step dim fh m dt ifix p t) []) = dim) /\
  (forall v j, (v < length p)%nat -> (j < dim)%nat -> coord (force_step dim fh m dt ifix p t) v j =
    if existsb (Nat.eqb v) ifix then coord p v j else coord p v j + dt * nth j (nth v (compute_forces dim fh m p t) []) 0).
Proof.
  intros HP. unfold force_step, move_points. set (F := compute_forces dim fh m p t).
  assert (length F = length p) as LF by (apply forces_length).
  assert (forall v, (v < length p)%nat -> length (nth v (zero_rows ifix F) []) = dim) as LZ.
  { intros v Hv. rewrite zero_rows_nth by (lia || reflexivity). pose proof (force_row_length dim p t fh m v Hv) as L. fold F in L.
    destruct (existsb _ _); [rewrite map_length|]; exact L. }
  assert (forall v, (v < length p)%nat -> length (nth v p []) = dim) as LP by (intros v Hv; rewrite Forall_forall in HP; apply HP, nth_In, Hv).
  split; [rewrite map2_length; [reflexivity|rewrite zero_rows_length; lia]|].
  assert (forall v, (v < length p)%nat -> nth v (map2 (map2 (fun x f => x + dt * f)) p (zero_rows ifix F)) [] = map2 (fun x f => x + dt * f) (nth v p []) (nth v (zero_rows ifix F) [])) as K.
  { intros v Hv. apply map2_nth; [rewrite zero_rows_length; lia|exact Hv]. }
  split; [intros v Hv; rewrite K, map2_length; rewrite ?LP, ?LZ; auto|].
  intros v j Hv Hj. unfold coord. rewrite K by exact Hv. rewrite map2_nth with (da := 0) (db := 0) by (rewrite ?LP, ?LZ; auto).
  rewrite zero_rows_nth by (lia || reflexivity). destruct (existsb _ _); [|reflexivity].
  rewrite nth_map' with (d' := 0); [lra|]. pose proof (force_row_length dim p t fh m v Hv) as L. fold F in L. lia.
Qed.
