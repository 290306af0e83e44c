(** Smoothing and the numbering (C125) *)
From Coq Require Import List ZArith Reals Bool Arith Lia Lra Permutation.
From Verif Require Import Model.Base Model.SDF Model.Simplex Model.Mesh Model.Laplace Spec.MeshTopo Spec.Smooth Spec.Renumber
  Proofs.ListAux Proofs.MeshAux Proofs.EdgeProofs Proofs.TopoProofs Proofs.LaplaceProofs Proofs.LaplaceFixed Proofs.ConvergeProofs Proofs.RenumberProofs.
Import ListNotations.
Local Open Scope R_scope.

Lemma rtotal_perm l m : Permutation l m -> rtotal l = rtotal m.
Proof. induction 1 as [|x l m _ IH|x y l|l m k _ IH1 _ IH2]; unfold rtotal in *; cbn; [reflexivity|rewrite IH; reflexivity|ring|congruence]. Qed.
Lemma permutes_seq pi n : permutes pi n -> Permutation (map pi (seq 0 n)) (seq 0 n).
Proof.
  intros [B I]. assert (NoDup (map pi (seq 0 n))) as ND.
  { assert (forall l, NoDup l -> (forall x, In x l -> (x < n)%nat) -> NoDup (map pi l)) as K.
    { induction l as [|x l IH]; intros H HB; [apply NoDup_nil|]. inversion H; subst. cbn [map]. apply NoDup_cons; [|apply IH; [assumption|intros; apply HB; right; assumption]].
      intros J. apply in_map_iff in J. destruct J as [y [E Hy]]. apply I in E; [congruence|apply HB; right; exact Hy|apply HB; left; reflexivity]. }
    apply K; [apply seq_NoDup|]. intros x Hx. apply in_seq in Hx. lia. }
  apply NoDup_Permutation_bis; [exact ND|rewrite map_length; lia|]. intros x Hx. apply in_map_iff in Hx. destruct Hx as [v [<- Hv]]. apply in_seq in Hv. apply in_seq.
  specialize (B v ltac:(lia)). lia.
Qed.
Lemma permutes_onto pi n w : permutes pi n -> (w < n)%nat -> exists v, (v < n)%nat /\ pi v = w.
Proof.
  intros P Lw. pose proof (Permutation_in w (Permutation_sym (permutes_seq pi n P)) ltac:(apply in_seq; lia)) as H.
  apply in_map_iff in H. destruct H as [v [E Hv]]. apply in_seq in Hv. exists v. split; [lia|exact E].
Qed.
Lemma sum_reindex pi n g : permutes pi n -> sum_below n g = sum_below n (fun u => g (pi u)).
Proof. intros P. rewrite <- !rtotal_seq. rewrite <- (map_map pi g). apply rtotal_perm. apply Permutation_map, Permutation_sym, permutes_seq, P. Qed.

Section Ren.
Variables (pi : nat -> nat) (t t' : list (list nat)) (n : nat) (RN : renumbered pi t t') (PI : permutes pi n) (HT : triangles t) (HV : valid n t)
  (US : forall v, (v < n)%nat -> exists r, In r t /\ In v r).
Lemma dn : distinct_numbers pi t.
Proof. intros v w [r [Hr Hv]] [s [Hs Hw]] E. apply (proj2 PI); [apply (HV r v Hr Hv)|apply (HV s w Hs Hw)|exact E]. Qed.
Lemma HT' : triangles t'.
Proof. exact (renumbered_simplex 3 pi t t' RN dn HT). Qed.
Lemma US' : forall v, (v < n)%nat -> exists r, In r t' /\ In v r.
Proof.
  intros w Lw. destruct (permutes_onto pi n w PI Lw) as [v [Lv <-]]. destruct (US v Lv) as [r [Hr Hv]].
  destruct (used_image pi t t' RN v ltac:(exists r; split; assumption)) as [r' [H1 H2]]. exists r'. split; assumption.
Qed.
Lemma HV' : valid n t'.
Proof.
  intros r w Hr Hw. destruct (used_preimage pi t t' RN w ltac:(exists r; split; assumption)) as [v [[s [Hs Hv]] <-]]. apply (proj1 PI). apply (HV s v Hs Hv).
Qed.
Lemma links_same v u : (v < n)%nat -> (u < n)%nat -> links t' (pi v) (pi u) = links t v u.
Proof.
  intros Lv Lu. unfold links. destruct (Nat.eqb_spec v u) as [->|N]; [rewrite Nat.eqb_refl; reflexivity|].
  destruct (Nat.eqb_spec (pi v) (pi u)) as [E|_]; [destruct (N (proj2 PI v u Lv Lu E))|]. f_equal.
  apply (entities_same pi t t' RN dn [v; u]). intros w [<- |[<- |[]]]; apply US; assumption.
Qed.
Lemma nbrs_total_same v f : (v < n)%nat -> rtotal (map f (nbrs t' (pi v))) = rtotal (map (fun u => f (pi u)) (nbrs t v)).
Proof.
  intros Lv. rewrite (nbrs_sum n t' (pi v) f HT' HV'), (nbrs_sum n t v _ HT HV). rewrite (sum_reindex pi n _ PI). apply sum_ext.
  intros u Lu. rewrite links_same by assumption. reflexivity.
Qed.
Lemma nbrs_count_same v : (v < n)%nat -> INR (length (nbrs t' (pi v))) = INR (length (nbrs t v)).
Proof. intros Lv. rewrite <- !rtotal_ones. rewrite nbrs_total_same by exact Lv. reflexivity. Qed.
Lemma sweep_same fx fx' p p' : length p = n -> relabelled pi p p' -> (forall v, (v < n)%nat -> (In (pi v) fx' <-> In v fx)) ->
  relabelled pi (lap_sweep t fx p) (lap_sweep t' fx' p').
Proof.
  intros LP [LP' HP] HF. split; [rewrite !sweep_length; exact LP'|]. rewrite sweep_length. intros v Lv.
  pose proof (proj1 PI v ltac:(lia)) as Lpv. rewrite !sweep_nth by lia.
  replace (existsb (Nat.eqb (pi v)) fx') with (existsb (Nat.eqb v) fx) by (apply eq_true_iff_eq; rewrite !mem_fixed; symmetry; apply HF; lia).
  destruct (existsb (Nat.eqb v) fx); [apply HP, Lv|]. apply map_ext_in. intros j _. rewrite nbrs_count_same by lia. f_equal.
  rewrite nbrs_total_same by lia. f_equal. apply map_ext_in. intros u Hu. rewrite HP; [reflexivity|].
  unfold nbrs in Hu. apply in_map_iff in Hu. destruct Hu as [[a b] [<- H]]. apply filter_In in H. destruct H as [H _]. cbn.
  unfold adj_entries in H. apply in_flat_map in H. destruct H as [r [Hr H]]. apply in_map_iff in H. destruct H as [[i k] [E Hij]]. inversion E; subst.
  apply (HV r); [exact Hr|]. apply nth_In. rewrite (proj1 (HT r Hr)). cbn in Hij. repeat (destruct Hij as [K|Hij]; [inversion K; cbn; lia|]). destruct Hij.
Qed.
(** the stopping test *)
Definition ratio (p q : list (list R)) (e : list nat) : R :=
  let len := fun (p : list (list R)) => let l := sub_len (nth (nth 0 e O) p []) (nth (nth 1 e O) p []) in if Rltb l eps52 then eps52 else l in
  (len q - len p) / len q.
Lemma ratios es p q : map2 (fun ln l => (ln - l) / ln) (edge_lens es q) (edge_lens es p) = map (ratio p q) es.
Proof. unfold map2, edge_lens. induction es as [|e es IH]; [reflexivity|]. cbn [map combine fst snd]. f_equal. exact IH. Qed.
Lemma sub_len_sym a b : sub_len a b = sub_len b a.
Proof.
  unfold sub_len. f_equal. revert b. unfold map2. induction a as [|x a IH]; intros [|y b]; try reflexivity. cbn [combine map fst snd].
  specialize (IH b). cbn. cbn in IH. f_equal; [ring|exact IH].
Qed.
Lemma ratio_sym p q a b : ratio p q [a; b] = ratio p q [b; a].
Proof. unfold ratio. cbn [nth]. rewrite (sub_len_sym (nth a q [])), (sub_len_sym (nth a p [])). reflexivity. Qed.
Lemma ratio_same p p' q q' a b : length p = n -> length q = n -> relabelled pi p p' -> relabelled pi q q' -> (a < n)%nat -> (b < n)%nat ->
  ratio p' q' [pi a; pi b] = ratio p q [a; b].
Proof. intros LP LQ [_ R1] [_ R2] La Lb. unfold ratio. cbn [nth]. rewrite !R1, !R2 by lia. reflexivity. Qed.
Lemma edge_ends r a b : simplex 3 r -> edge_of r a b <-> In a r /\ In b r /\ a <> b.
Proof.
  intros [L ND]. split.
  - intros [i [j [Li [Lj [N [<- <-]]]]]]. split; [apply nth_In, Li|]. split; [apply nth_In, Lj|]. intros E. apply N. apply (proj1 (NoDup_nth r 0%nat) ND); assumption.
  - intros [Ia [Ib N]]. apply (In_nth _ _ O) in Ia, Ib. destruct Ia as [i [Li Ei]]. destruct Ib as [j [Lj Ej]]. exists i, j. repeat split; try assumption. intros ->. congruence.
Qed.
Lemma max_same p p' q q' : t <> [] -> length p = n -> length q = n -> relabelled pi p p' -> relabelled pi q q' ->
  max_list (map (ratio p' q') (get_edges 2 t')) = max_list (map (ratio p q) (get_edges 2 t)).
Proof.
  intros NE LP LQ R1 R2.
  destruct (get_edges_complete 2 t (or_introl eq_refl) (fun r Hr => proj1 (HT r Hr))) as [S1 C1].
  destruct (get_edges_complete 2 t' (or_introl eq_refl) (fun r Hr => proj1 (HT' r Hr))) as [S2 C2].
  assert (forall x, In x (map (ratio p q) (get_edges 2 t)) -> In x (map (ratio p' q') (get_edges 2 t'))) as A.
  { intros x Hx. apply in_map_iff in Hx. destruct Hx as [e [<- He]]. destruct (S1 e He) as [r [a [b [Hr [EO ->]]]]].
    apply (edge_ends r a b (HT r Hr)) in EO. destruct EO as [Ia [Ib N]]. pose proof (HV r a Hr Ia) as La. pose proof (HV r b Hr Ib) as Lb.
    destruct RN as [t1 [PE F2]]. destruct (Forall2_in_l _ _ _ _ F2 Hr) as [r' [Hr' PR]]. apply (Permutation_in _ PE) in Hr'.
    assert (edge_of r' (pi a) (pi b)) as EO'.
    { apply (edge_ends r' _ _ (HT' r' Hr')). split; [apply (Permutation_in _ PR), in_map, Ia|]. split; [apply (Permutation_in _ PR), in_map, Ib|].
      intros E. apply N. apply (proj2 PI); assumption. }
    rewrite <- (ratio_same p p' q q' a b LP LQ R1 R2 La Lb). destruct (C2 r' _ _ Hr' EO') as [H|H]; [|rewrite ratio_sym]; apply in_map, H. }
  assert (forall x, In x (map (ratio p' q') (get_edges 2 t')) -> In x (map (ratio p q) (get_edges 2 t))) as B.
  { intros x Hx. apply in_map_iff in Hx. destruct Hx as [e [<- He]]. destruct (S2 e He) as [r' [a' [b' [Hr' [EO ->]]]]].
    apply (edge_ends r' a' b' (HT' r' Hr')) in EO. destruct EO as [Ia [Ib N]].
    destruct RN as [t1 [PE F2]]. pose proof (Permutation_in _ (Permutation_sym PE) Hr') as Hr1. destruct (Forall2_in_r _ _ _ _ F2 Hr1) as [r [Hr PR]].
    apply (Permutation_in _ (Permutation_sym PR)) in Ia, Ib. apply in_map_iff in Ia, Ib. destruct Ia as [a [<- Ia]]. destruct Ib as [b [<- Ib]].
    pose proof (HV r a Hr Ia) as La. pose proof (HV r b Hr Ib) as Lb. rewrite (ratio_same p p' q q' a b LP LQ R1 R2 La Lb).
    assert (edge_of r a b) as EO by (apply (edge_ends r _ _ (HT r Hr)); repeat split; try assumption; intros ->; apply N; reflexivity).
    destruct (C1 r _ _ Hr EO) as [H|H]; [|rewrite ratio_sym]; apply in_map, H. }
  assert (map (ratio p q) (get_edges 2 t) <> []) as NZ.
  { destruct t as [|r t0]; [congruence|]. unfold get_edges. cbn. discriminate. }
  assert (map (ratio p' q') (get_edges 2 t') <> []) as NZ'.
  { intros E. destruct (map (ratio p q) (get_edges 2 t)) as [|x l]; [congruence|]. specialize (A x (or_introl eq_refl)). rewrite E in A. destruct A. }
  apply Rle_antisym; apply max_list_ge; [apply B|apply A]; apply max_list_in; assumption.
Qed.
Lemma loop_same fx fx' tol : t <> [] -> (forall v, (v < n)%nat -> (In (pi v) fx' <-> In v fx)) -> forall k p p', length p = n -> relabelled pi p p' ->
  relabelled pi (lap_loop k t fx (get_edges 2 t) tol (edge_lens (get_edges 2 t) p) p) (lap_loop k t' fx' (get_edges 2 t') tol (edge_lens (get_edges 2 t') p') p').
Proof.
  intros NE HF. induction k as [|k IH]; intros p p' LP RP; [exact RP|]. cbn [lap_loop].
  pose proof (sweep_same fx fx' p p' LP RP HF) as RS. assert (length (lap_sweep t fx p) = n) as LS by (rewrite sweep_length; exact LP).
  rewrite !ratios, (max_same p p' _ _ NE LP LS RP RS). destruct (Rltb _ tol); [exact RS|]. apply IH; assumption.
Qed.
End Ren.

Lemma closest_same pi p p' q : permutes pi (length p) -> relabelled pi p p' -> (forall x, In x p -> length x = 2%nat) -> length q = 2%nat -> p <> [] ->
  no_tie p q -> closest_node q p' = pi (closest_node q p).
Proof.
  intros PI [LP' R] HP Hq NE NT.
  assert (forall x, In x p' -> length x = 2%nat) as HP'.
  { intros x Hx. apply (In_nth _ _ []) in Hx. destruct Hx as [w [Lw <-]]. rewrite LP' in Lw. destruct (permutes_onto pi _ w PI Lw) as [v [Lv <-]]. rewrite R by exact Lv. apply HP, nth_In, Lv. }
  assert (p' <> []) as NE' by (intros ->; destruct p; [congruence|discriminate]).
  destruct (closest_nearest q p Hq HP NE) as [L1 [M1 _]]. destruct (closest_nearest q p' Hq HP' NE') as [L2 [M2 _]].
  rewrite LP' in L2, M2. destruct (permutes_onto pi _ _ PI L2) as [v [Lv E]]. rewrite <- E in *. f_equal.
  symmetry. apply NT; try assumption. intros w Lw. specialize (M2 (pi w) (proj1 PI w Lw)). rewrite !R in M2 by assumption. exact M2.
Qed.
