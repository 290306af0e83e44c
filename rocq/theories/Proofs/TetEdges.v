(** edges of tetrahedra: get_boundary_edges and is_manifold with dim = 3; laplacian2 on tetrahedra *)
From Coq Require Import List ZArith Reals Bool Arith Lia Lra Sorting.Sorted Permutation.
From Verif Require Import Model.Base Model.SDF Model.Simplex Model.Mesh Model.Laplace Model.Smooth3 Spec.MeshTopo Proofs.ListAux Proofs.MeshAux
  Proofs.EdgeProofs Proofs.TopoProofs Proofs.LaplaceProofs.
Import ListNotations.

Definition tet_edges (r : row) : list row := map sort_nat (map (fun ix => pick ix r) [[0;1];[1;2];[2;0];[0;3];[1;3];[2;3]]).


Lemma sort_pair_eq a b c d : a <> b -> sort_nat [a; b] = sort_nat [c; d] -> (a = c /\ b = d) \/ (a = d /\ b = c).
Proof.
  intros N H. apply sort_eq_incl in H. pose proof (H a ltac:(cbn; tauto)) as A. pose proof (H b ltac:(cbn; tauto)) as B. cbn in A, B.
  destruct A as [A|[A|[]]]; destruct B as [B|[B|[]]]; subst; auto; exfalso; apply N; reflexivity.
Qed.

Lemma tet_edges_spec r : simplex 4 r -> NoDup (tet_edges r) /\
  forall f, In f (tet_edges r) <-> (increasing f /\ length f = 2 /\ incl f r).
Proof.
  intros [HL HN]. destruct (row4 r HL) as [a [b [c [d ->]]]].
  assert (a <> b /\ a <> c /\ a <> d /\ b <> c /\ b <> d /\ c <> d) as [Nab [Nac [Nad [Nbc [Nbd Ncd]]]]].
  { inversion HN as [|? ? N1 M1]; subst. inversion M1 as [|? ? N2 M2]; subst. inversion M2 as [|? ? N3 M3]; subst. cbn in *. intuition. }
  change (tet_edges [a; b; c; d]) with [sort_nat [a;b]; sort_nat [b;c]; sort_nat [c;a]; sort_nat [a;d]; sort_nat [b;d]; sort_nat [c;d]]. split.
  - repeat (apply NoDup_cons; [intros K; cbn [In] in K|]); try apply NoDup_nil; try (destruct K; fail);
      repeat (destruct K as [K|K]; [symmetry in K; apply sort_pair_eq in K; [|congruence]; destruct K as [[? ?]|[? ?]]; congruence|]); destruct K.
  - intros f. rewrite increasing_ss. split.
    + cbn [In]. intros [<- | [<- | [<- | [<- | [<- | [<- | []]]]]]]; (split; [apply sort_nodup_lt; solve_nodup|split; [apply sort_nat_length|]]);
        intros x Hx; apply (proj1 (sort_nat_in _ _)) in Hx; cbn in *; tauto.
    + intros [HS [L2 HI]]. destruct (row2 f L2) as [x [y ->]].
      assert (x <> y) as N. { intros ->. apply sorted_lt_nodup in HS. inversion HS as [|? ? X _]. apply X. left. reflexivity. }
      pose proof (HI x ltac:(cbn; tauto)) as X. pose proof (HI y ltac:(cbn; tauto)) as Y. clear HI. cbn [In] in X, Y.
      assert (forall u v, u <> v -> (u = x /\ v = y) \/ (u = y /\ v = x) -> sort_nat [u; v] = [x; y]) as SF.
      { intros u v Nuv C. apply sorted_face; [exact HS|solve_nodup|reflexivity|]. intros z [<- | [<- | []]]; cbn; destruct C as [[-> ->]|[-> ->]]; tauto. }
      destruct X as [<- | [<- | [<- | [<- | []]]]]; destruct Y as [<- | [<- | [<- | [<- | []]]]]; try (exfalso; apply N; reflexivity); cbn [In];
        first [left; apply SF; [congruence|tauto]
              |right; left; apply SF; [congruence|tauto]
              |right; right; left; apply SF; [congruence|tauto]
              |right; right; right; left; apply SF; [congruence|tauto]
              |right; right; right; right; left; apply SF; [congruence|tauto]
              |right; right; right; right; right; left; apply SF; [congruence|tauto]].
Qed.

Lemma boundary_edges3_in uniq t f : uniq_ok uniq -> (forall r, In r t -> simplex 4 r) ->
  (In f (get_boundary_edges uniq 3 t) <-> increasing f /\ length f = 2 /\ entities_on f t = 2).
Proof.
  intros HU HT. unfold get_boundary_edges. rewrite rows_with_count_in by (assumption || (cbn; lia)). cbn [Nat.sub].
  unfold get_edges. rewrite map_flat_map. change (3 =? 2) with false. cbn iota. change (fun x : row => map sort_nat (map (fun ix => pick ix x) [[0;1];[1;2];[2;0];[0;3];[1;3];[2;3]])) with tet_edges.
  split.
  - intros E. assert (In f (flat_map tet_edges t)) as I by (apply (proj2 (count_occ_In row_dec _ _)); unfold gt; rewrite E; lia).
    apply in_flat_map in I. destruct I as [r [Hr Hf]]. apply (proj2 (tet_edges_spec r (HT r Hr))) in Hf. destruct Hf as [A [B _]].
    split; [exact A|]. split; [exact B|]. rewrite <- E. symmetry. apply count_flat_map.
    + intros r' Hr'. apply tet_edges_spec, HT, Hr'.
    + intros r' Hr'. rewrite (proj2 (tet_edges_spec r' (HT r' Hr'))), forallb_has_incl. tauto.
  - intros [A [B E]]. rewrite <- E. apply count_flat_map.
    + intros r' Hr'. apply tet_edges_spec, HT, Hr'.
    + intros r' Hr'. rewrite (proj2 (tet_edges_spec r' (HT r' Hr'))), forallb_has_incl. tauto.
Qed.

Lemma nbrs_firstn t v : (forall r, In r t -> 3 <= length r) -> nbrs t v = nbrs (map (firstn 3) t) v.
Proof.
  induction t as [|r t IH]; intros H; [reflexivity|]. cbn [map]. rewrite nbrs_cons, (nbrs_cons (firstn 3 r)), IH by (intros; apply H; right; assumption).
  f_equal. specialize (H r (or_introl eq_refl)). destruct r as [|a [|b [|c r]]]; cbn in H; try lia. reflexivity.
Qed.
Lemma NoDup_firstn {A} n (l : list A) : NoDup l -> NoDup (firstn n l).
Proof.
  intros H. rewrite <- (firstn_skipn n l) in H. revert H. generalize (firstn n l). intros l1. induction l1 as [|x l1 IH]; intros H; [constructor|].
  cbn in H. inversion H; subst. constructor; [|apply IH; assumption]. intros K. apply H2, in_or_app. left. exact K.
Qed.
Lemma nbrs_used_tets t v : (forall r, In r t -> simplex 4 r) -> ((exists r, In r t /\ In v (firstn 3 r)) <-> length (nbrs t v) <> 0).
Proof.
  intros HT. rewrite nbrs_firstn by (intros r Hr; destruct (HT r Hr); lia). rewrite <- nbrs_used.
  - split.
    + intros [r [Hr Hv]]. exists (firstn 3 r). split; [apply in_map, Hr|exact Hv].
    + intros [r [Hr Hv]]. apply in_map_iff in Hr. destruct Hr as [r0 [<- Hr]]. exists r0. tauto.
  - intros r Hr. apply in_map_iff in Hr. destruct Hr as [r0 [<- Hr]]. destruct (HT r0 Hr) as [L N]. split; [rewrite firstn_length; lia|apply NoDup_firstn, N].
Qed.
