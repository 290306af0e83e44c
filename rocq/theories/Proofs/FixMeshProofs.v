(** Proofs about fix_mesh. *)
From Coq Require Import List ZArith Reals Bool Arith Lia Lra Permutation Sorted.
From Verif Require Import Model.Base Model.Simplex Model.Mesh Proofs.MeshAux.
Import ListNotations.

(** description of a row by the keys of its vertices *)
Definition row_keys (k : list R -> key) (p : list (list R)) (r : row) : list key := map (fun v => k (nth v p [])) r.

Record clean (k : list R -> key) (p : list (list R)) (t : list row) (p2 : list (list R)) (t2 : list row) : Prop := mkClean {
  cl_valid : forall r v, In r t2 -> In v r -> v < length p2;
  cl_from : forall q, In q p2 -> In q p;
  cl_nodup : NoDup (map k p2);
  cl_fwd : forall r, In r t -> exists r', In r' t2 /\ Permutation (row_keys k p2 r') (row_keys k p r);
  cl_bwd : forall r', In r' t2 -> exists r, In r t /\ Permutation (row_keys k p2 r') (row_keys k p r);
  cl_distinct : forall i j, i < length t2 -> j < length t2 -> i <> j -> ~ Permutation (nth i t2 []) (nth j t2 []) }.

Section Fix.
Variables (uniqK : list key -> list key) (uniqR : list row -> list row) (k : list R -> key).
Hypotheses (HK : uniq_ok uniqK) (HR : uniq_ok uniqR).
Variables (p : list (list R)) (t : list row).
Hypothesis HV : valid_rows (length p) t = true.

Let u := uniqK (map k p).
Let p1 := map (fun i => nth i p []) (map (fun kk => find_pos (fun q => key_eqb (k q) kk) p) u).
Let jx := map (fun q => find_pos (key_eqb (k q)) u) p.
Let t1 := uniqR (map (fun r => sort_nat (map (fun v => nth v jx O) r)) t).

Lemma valid_in r v : In r t -> In v r -> v < length p.
Proof.
  intros Hr Hv. unfold valid_rows in HV. rewrite forallb_forall in HV. specialize (HV r Hr). rewrite forallb_forall in HV.
  specialize (HV v Hv). apply Nat.ltb_lt in HV. exact HV.
Qed.
Lemma u_nodup : NoDup u. Proof. apply HK. Qed.
Lemma u_in kk : In kk u <-> exists q, In q p /\ k q = kk.
Proof.
  unfold u. rewrite (proj2 (HK _)), in_map_iff. split; intros [q [A B]]; exists q; tauto.
Qed.
Lemma p1_length : length p1 = length u. Proof. unfold p1. rewrite !map_length. reflexivity. Qed.
Lemma p1_key j : j < length u -> k (nth j p1 []) = nth j u [].
Proof.
  intros Hj. unfold p1. rewrite (nth_map' _ _ _ [] 0) by (rewrite map_length; exact Hj).
  rewrite (nth_map' (A:=key) _ _ _ 0 []) by exact Hj. assert (In (nth j u []) u) as I by (apply nth_In; exact Hj).
  apply u_in in I. destruct I as [q [Iq Eq]].
  pose proof (find_pos_true (fun q0 => key_eqb (k q0) (nth j u [])) p [] q Iq (proj2 (key_eqb_eq _ _) Eq)) as T.
  apply key_eqb_eq in T. exact T.
Qed.
Lemma p1_map_key : map k p1 = u.
Proof.
  apply (nth_ext _ _ (k []) []); [rewrite map_length; apply p1_length|]. intros j Hj. rewrite map_length in Hj.
  rewrite map_nth. apply p1_key. rewrite <- p1_length. exact Hj.
Qed.
Lemma p1_from q : In q p1 -> In q p.
Proof.
  intros I. apply (In_nth _ _ []) in I. destruct I as [j [Hj <-]]. rewrite p1_length in Hj. unfold p1.
  rewrite (nth_map' _ _ _ [] 0) by (rewrite map_length; exact Hj). rewrite (nth_map' (A:=key) _ _ _ 0 []) by exact Hj.
  apply nth_In. assert (In (nth j u []) u) as I by (apply nth_In; exact Hj). apply u_in in I. destruct I as [q [Iq Eq]].
  apply (find_pos_lt _ _ q Iq). apply key_eqb_eq, Eq.
Qed.
Lemma jx_length : length jx = length p. Proof. unfold jx. apply map_length. Qed.
Lemma jx_lt v : v < length p -> nth v jx 0 < length p1.
Proof.
  intros Hv. unfold jx. rewrite (nth_map' _ _ _ 0 []) by exact Hv. rewrite p1_length.
  apply (find_pos_lt _ _ (k (nth v p []))); [apply u_in; exists (nth v p []); split; [apply nth_In, Hv|reflexivity]|apply key_eqb_eq; reflexivity].
Qed.
Lemma jx_key v : v < length p -> k (nth (nth v jx 0) p1 []) = k (nth v p []).
Proof.
  intros Hv. rewrite p1_key by (rewrite <- p1_length; apply jx_lt, Hv). unfold jx. rewrite (nth_map' _ _ _ 0 []) by exact Hv.
  assert (In (k (nth v p [])) u) as I by (apply u_in; exists (nth v p []); split; [apply nth_In, Hv|reflexivity]).
  pose proof (find_pos_true (key_eqb (k (nth v p []))) u [] _ I (proj2 (key_eqb_eq _ _) eq_refl)) as T. apply key_eqb_eq in T. congruence.
Qed.
Lemma t1_nodup : NoDup t1. Proof. apply HR. Qed.
Lemma t1_in r' : In r' t1 <-> exists r, In r t /\ r' = sort_nat (map (fun v => nth v jx 0) r).
Proof. unfold t1. rewrite (proj2 (HR _)), in_map_iff. split; intros [r [A B]]; exists r; split; congruence || assumption. Qed.
Lemma t1_sorted r' : In r' t1 -> StronglySorted le r'.
Proof. rewrite t1_in. intros [r [_ ->]]. apply sort_nat_sorted. Qed.
Lemma t1_keys r : In r t -> Permutation (row_keys k p1 (sort_nat (map (fun v => nth v jx 0) r))) (row_keys k p r).
Proof.
  intros Hr. unfold row_keys. rewrite (Permutation_map _ (sort_nat_perm _)), map_map.
  rewrite (map_ext_in _ (fun v => k (nth v p []))); [reflexivity|]. intros v Hv. apply jx_key. eapply valid_in; eauto.
Qed.
Lemma clean1 : clean k p t p1 t1.
Proof.
  constructor.
  - intros r v Hr Hv. apply t1_in in Hr. destruct Hr as [r0 [I0 ->]]. rewrite sort_nat_in, in_map_iff in Hv. destruct Hv as [w [<- Hw]].
    apply jx_lt. eapply valid_in; eauto.
  - apply p1_from.
  - rewrite p1_map_key. apply u_nodup.
  - intros r Hr. exists (sort_nat (map (fun v => nth v jx 0) r)). split; [apply t1_in; eauto|apply t1_keys, Hr].
  - intros r' Hr'. apply t1_in in Hr'. destruct Hr' as [r [Hr ->]]. exists r. split; [exact Hr|apply t1_keys, Hr].
  - intros i j Hi Hj N HP. apply N. apply (proj1 (NoDup_nth t1 []) t1_nodup i j Hi Hj).
    apply sorted_perm_eq; try (apply t1_sorted, nth_In; assumption). exact HP.
Qed.

(** delete_unused *)
Let pix := unique_nat (concat t1).
Let g := fun v => find_pos (Nat.eqb v) pix.
Let p2 := map (fun i => nth i p1 []) pix.
Let t2 := map (map g) t1.
Lemma pix_in v : In v pix <-> exists r, In r t1 /\ In v r.
Proof. unfold pix. rewrite unique_nat_in, in_concat. split; intros [r [A B]]; exists r; tauto. Qed.
Lemma g_lt r v : In r t1 -> In v r -> g v < length p2.
Proof. intros Hr Hv. unfold p2, g. rewrite map_length. apply (find_pos_lt _ _ v); [apply pix_in; eauto|apply Nat.eqb_refl]. Qed.
Lemma g_inv r v : In r t1 -> In v r -> nth (g v) pix 0 = v.
Proof. intros Hr Hv. apply nth_find_pos, pix_in. eauto. Qed.
Lemma g_pt r v : In r t1 -> In v r -> nth (g v) p2 [] = nth v p1 [].
Proof.
  intros Hr Hv. unfold p2. rewrite (nth_map' _ _ _ [] 0); [rewrite (g_inv r v Hr Hv); reflexivity|].
  pose proof (g_lt r v Hr Hv) as L. unfold p2 in L. rewrite map_length in L. exact L.
Qed.
Lemma g_row_inv r : In r t1 -> map (fun j => nth j pix 0) (map g r) = r.
Proof. intros Hr. rewrite map_map. rewrite <- (map_id r) at 2. apply map_ext_in. intros v Hv. apply (g_inv r v Hr Hv). Qed.
Lemma g_keys r : In r t1 -> row_keys k p2 (map g r) = row_keys k p1 r.
Proof. intros Hr. unfold row_keys. rewrite map_map. apply map_ext_in. intros v Hv. rewrite (g_pt r v Hr Hv). reflexivity. Qed.
Lemma clean2 : clean k p t p2 t2 /\ (forall v, v < length p2 -> exists r, In r t2 /\ In v r).
Proof.
  destruct clean1 as [V F N FW BW D]. split; [constructor|].
  - intros r' v Hr Hv. unfold t2 in Hr. apply in_map_iff in Hr. destruct Hr as [r [<- Hr]]. apply in_map_iff in Hv. destruct Hv as [w [<- Hw]].
    apply (g_lt r w Hr Hw).
  - intros q Hq. unfold p2 in Hq. apply in_map_iff in Hq. destruct Hq as [i [<- Hi]]. apply F. apply nth_In.
    apply pix_in in Hi. destruct Hi as [r [Hr Hv]]. apply (V r i Hr Hv).
  - unfold p2. rewrite map_map.
    assert (forall l, NoDup l -> (forall i, In i l -> i < length p1) -> NoDup (map (fun x => k (nth x p1 [])) l)) as Q.
    { intros l Hl. induction Hl as [|x l Hx Hl IH]; intros HB; [constructor|]. cbn. constructor; [|apply IH; intros; apply HB; right; assumption].
      intros I. apply in_map_iff in I. destruct I as [y [E Iy]]. apply Hx. replace x with y; [exact Iy|].
      apply (proj1 (NoDup_nth (map k p1) (k [])) N); try (rewrite map_length; apply HB; (left; reflexivity) || (right; assumption)).
      rewrite !map_nth. exact E. }
    apply Q; [apply unique_nat_nodup|]. intros i Hi. apply pix_in in Hi. destruct Hi as [r [Hr Hv]]. apply (V r i Hr Hv).
  - intros r Hr. destruct (FW r Hr) as [r1 [I1 P1]]. exists (map g r1). split; [apply in_map, I1|]. rewrite g_keys by exact I1. exact P1.
  - intros r' Hr'. unfold t2 in Hr'. apply in_map_iff in Hr'. destruct Hr' as [r1 [<- I1]]. rewrite g_keys by exact I1. apply BW, I1.
  - intros i j Hi Hj Nij HP. unfold t2 in *. rewrite map_length in Hi, Hj. rewrite !(nth_map' (A:=row) (B:=row) _ _ _ [] []) in HP by assumption.
    apply (D i j Hi Hj Nij). apply (Permutation_map (fun j => nth j pix 0)) in HP.
    rewrite !g_row_inv in HP by (apply nth_In; assumption). exact HP.
  - intros v Hv. unfold p2 in Hv. rewrite map_length in Hv. assert (In (nth v pix 0) pix) as I by (apply nth_In, Hv).
    apply pix_in in I. destruct I as [r [Hr Hw]]. exists (map g r). split; [apply in_map, Hr|]. apply in_map_iff. exists (nth v pix 0). split; [|exact Hw].
    unfold g. apply find_pos_nth; [apply unique_nat_nodup|exact Hv].
Qed.

Lemma orient_perm q r : Permutation (orient q r) r.
Proof. unfold orient. destruct (Rltb _ _); [apply swap2_perm|reflexivity]. Qed.
Lemma clean_orient q s : clean k p t q s -> clean k p t q (map (orient q) s).
Proof.
  intros [V F N FW BW D]. constructor; try assumption.
  - intros r v Hr Hv. apply in_map_iff in Hr. destruct Hr as [r0 [<- I0]]. apply (V r0 v I0). apply (Permutation_in _ (orient_perm q r0)), Hv.
  - intros r Hr. destruct (FW r Hr) as [r1 [I1 P1]]. exists (orient q r1). split; [apply in_map, I1|].
    unfold row_keys in *. rewrite (Permutation_map _ (orient_perm q r1)). exact P1.
  - intros r' Hr'. apply in_map_iff in Hr'. destruct Hr' as [r0 [<- I0]]. destruct (BW r0 I0) as [r [Hr P]]. exists r. split; [exact Hr|].
    unfold row_keys in *. rewrite (Permutation_map _ (orient_perm q r0)). exact P.
  - intros i j Hi Hj Nij HP. rewrite map_length in Hi, Hj. apply (D i j Hi Hj Nij).
    rewrite !(nth_map' (A:=row) (B:=row) _ _ _ [] []) in HP by assumption. rewrite !orient_perm in HP. exact HP.
Qed.
Lemma used_orient q s : (forall v, v < length q -> exists r, In r s /\ In v r) -> forall v, v < length q -> exists r, In r (map (orient q) s) /\ In v r.
Proof.
  intros H v Hv. destruct (H v Hv) as [r [Ir Iv]]. exists (orient q r). split; [apply in_map, Ir|]. apply (Permutation_in _ (Permutation_sym (orient_perm q r))), Iv.
Qed.

Lemma fix_mesh_clean del ori p' t' jx' : fix_mesh uniqK uniqR k p t del ori = Ok (p', t', jx') ->
  clean k p t p' t' /\ (del = true -> forall v, v < length p' -> exists r, In r t' /\ In v r).
Proof.
  unfold fix_mesh. destruct (length p =? 0) eqn:EP0; [discriminate|]. rewrite HV. fold u. fold jx. fold p1. fold t1.
  destruct del.
  - fold pix. change (map (fun i => nth i p1 []) pix) with p2. change (map (map (fun v => find_pos (Nat.eqb v) pix)) t1) with t2.
    intros H. inversion H; subst. destruct clean2 as [C U]. destruct ori.
    + split; [apply clean_orient, C|intros _; apply used_orient, U].
    + split; [exact C|intros _; exact U].
  - intros H. inversion H; subst. split; [|discriminate]. destruct ori; [apply clean_orient|]; apply clean1.
Qed.
Lemma fix_mesh_jx ori p' t' jx' : fix_mesh uniqK uniqR k p t false ori = Ok (p', t', jx') ->
  length jx' = length p /\ forall v, v < length p -> nth v jx' 0 < length p' /\ k (nth (nth v jx' 0) p' []) = k (nth v p []).
Proof.
  unfold fix_mesh. destruct (length p =? 0) eqn:EP0; [discriminate|]. rewrite HV. fold u. fold jx. fold p1. fold t1. intros H. inversion H; subst. split; [apply jx_length|].
  intros v Hv. split; [apply jx_lt, Hv|apply jx_key, Hv].
Qed.
Lemma fix_mesh_jx_unused ori p' t' jx' : fix_mesh uniqK uniqR k p t true ori = Ok (p', t', jx') ->
  exists t0, fix_mesh uniqK uniqR k p t true false = Ok (p', t0, jx') /\ jx' = concat t0 /\ (ori = true -> t' = map (orient p') t0).
Proof.
  unfold fix_mesh. destruct (length p =? 0) eqn:EP0; [discriminate|]. rewrite HV. fold u. fold jx. fold p1. fold t1. fold pix.
  intros H. inversion H; subst. eexists. split; [reflexivity|]. split.
  - rewrite concat_map. reflexivity.
  - intros ->. reflexivity.
Qed.
Lemma fix_mesh_orient del p' t' jx' : fix_mesh uniqK uniqR k p t del true = Ok (p', t', jx') ->
  exists t0, fix_mesh uniqK uniqR k p t del false = Ok (p', t0, jx') /\ t' = map (orient p') t0.
Proof.
  unfold fix_mesh. destruct (length p =? 0) eqn:EP0; [discriminate|]. rewrite HV. destruct del; intros H; inversion H; subst; eexists; (split; [reflexivity|reflexivity]).
Qed.
Lemma fix_mesh_total del ori : p <> [] -> exists p' t' jx', fix_mesh uniqK uniqR k p t del ori = Ok (p', t', jx').
Proof.
  intros N. unfold fix_mesh. assert (length p =? 0 = false) as -> by (destruct p; [congruence|reflexivity]).
  rewrite HV. destruct del; do 3 eexists; reflexivity.
Qed.
End Fix.

Lemma fix_mesh_valid uniqK uniqR k p t del ori r : fix_mesh uniqK uniqR k p t del ori = Ok r -> valid_rows (length p) t = true.
Proof. unfold fix_mesh. destruct (length p =? 0); [discriminate|]. destruct (valid_rows (length p) t); [reflexivity|discriminate]. Qed.
Lemma valid_rows_spec n t : valid_rows n t = true <-> forall r v, In r t -> In v r -> v < n.
Proof.
  unfold valid_rows. rewrite forallb_forall. split.
  - intros H r v Hr Hv. specialize (H r Hr). rewrite forallb_forall in H. apply Nat.ltb_lt, H, Hv.
  - intros H r Hr. rewrite forallb_forall. intros v Hv. apply Nat.ltb_lt. eauto.
Qed.

(** ---- volumes ---- *)
Local Open Scope R_scope.
Lemma Rabs_neg_eq a b : a = - b -> Rabs a = Rabs b.
Proof. intros ->. apply Rabs_Ropp. Qed.
Lemma dim2_or_3 (v : list R) : (length v = 2%nat \/ length v = 3%nat \/ (length v <> 2%nat /\ length v <> 3%nat)).
Proof. lia. Qed.
Lemma simp_vol_swap (s : list (list R)) : simp_vol (swap2 s) = - simp_vol s.
Proof.
  destruct s as [|a [|b s]]; try (cbn; lra); cbn [swap2].
  - destruct a as [|? [|? [|? [|? ?]]]]; cbn; lra.
  - destruct s as [|c [|d [|e s]]]; destruct a as [|? [|? [|? [|? ?]]]], b as [|? [|? [|? [|? ?]]]]; try (cbn; lra);
      destruct c as [|? [|? [|? [|? ?]]]]; try (cbn; lra); try (destruct d as [|? [|? [|? [|? ?]]]]; try (cbn; lra));
      cbn [simp_vol]; lra.
Qed.
Lemma simp_vol_long s : (5 <= length s)%nat -> simp_vol s = 0.
Proof.
  destruct s as [|a [|b [|c [|d [|e s]]]]]; cbn [length]; intros H; try lia.
  destruct a as [|? [|? [|? [|? ?]]]], b as [|? [|? [|? [|? ?]]]]; try reflexivity;
  destruct c as [|? [|? [|? [|? ?]]]]; try reflexivity; destruct d as [|? [|? [|? [|? ?]]]]; reflexivity.
Qed.
Lemma abs_vol_adjacent pre x y l : Rabs (simp_vol (pre ++ x :: y :: l)) = Rabs (simp_vol (pre ++ y :: x :: l)).
Proof.
  destruct pre as [|a pre]; [apply Rabs_neg_eq; apply (simp_vol_swap (y :: x :: l))|].
  apply Rabs_neg_eq. destruct pre as [|b pre]; cbn [app].
  - destruct l as [|c [|d l]].
    + destruct a as [|? [|? [|? [|? ?]]]], x as [|? [|? [|? [|? ?]]]], y as [|? [|? [|? [|? ?]]]]; cbn [simp_vol]; lra.
    + destruct a as [|? [|? [|? [|? ?]]]], x as [|? [|? [|? [|? ?]]]], y as [|? [|? [|? [|? ?]]]]; try (cbn; lra);
      destruct c as [|? [|? [|? [|? ?]]]]; cbn [simp_vol]; lra.
    + destruct a as [|? [|? [|? [|? ?]]]], x as [|? [|? [|? [|? ?]]]], y as [|? [|? [|? [|? ?]]]]; try (cbn; lra);
      destruct c as [|? [|? [|? [|? ?]]]]; cbn [simp_vol]; lra.
  - destruct pre as [|c pre]; cbn [app].
    + destruct l as [|d l].
      * destruct a as [|? [|? [|? [|? ?]]]], x as [|? [|? [|? [|? ?]]]], y as [|? [|? [|? [|? ?]]]]; try (cbn; lra);
        destruct b as [|? [|? [|? [|? ?]]]]; cbn [simp_vol]; lra.
      * destruct a as [|? [|? [|? [|? ?]]]], b as [|? [|? [|? [|? ?]]]], y as [|? [|? [|? [|? ?]]]]; try (cbn; lra);
        destruct x as [|? [|? [|? [|? ?]]]]; cbn [simp_vol]; lra.
    + rewrite !simp_vol_long by (cbn; rewrite ?app_length; cbn; lia). lra.
Qed.
Lemma abs_vol_perm s s' : Permutation s s' -> Rabs (simp_vol s) = Rabs (simp_vol s').
Proof. apply (perm_invariant (fun s => Rabs (simp_vol s))). intros. apply abs_vol_adjacent. Qed.
Lemma orient_vol p r : 0 <= simp_vol (map (fun v => nth v p []) (orient p r)).
Proof.
  unfold orient, Rltb. destruct (Rlt_dec (simp_vol (map (fun v => nth v p []) r)) 0) as [H|H]; [|lra].
  rewrite map_swap2, simp_vol_swap. lra.
Qed.
