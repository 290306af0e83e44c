From Coq Require Import List ZArith Reals Bool Arith Lia.
From Verif Require Import Model.Base Model.MPI Model.Migration Proofs.Choreo Proofs.MeshAux Proofs.ExchangeProofs.
Import ListNotations.
Local Open Scope nat_scope.

Notation mesh := (list (list R) * list (list nat))%type.
(** position of the block of a rank *)
Lemma fm_nth {A} (f : nat -> list A) d r k m : r < m -> k < length (f r) -> nth (list_sum (map (fun i => length (f i)) (seq 0 r)) + k) (flat_map f (seq 0 m)) d = nth k (f r) d.
Proof.
  intros L Lk. replace m with (r + S (m - r - 1)) by lia. rewrite seq_app, flat_map_app. cbn [Nat.add seq flat_map].
  assert (length (flat_map f (seq 0 r)) = list_sum (map (fun i => length (f i)) (seq 0 r))) as E.
  { generalize (seq 0 r). induction l as [|a l IH]; [reflexivity|]. cbn. rewrite app_length, IH. reflexivity. }
  rewrite app_nth2 by lia. rewrite E. rewrite app_nth1 by lia. f_equal. lia.
Qed.
Lemma in_block {A} (f : nat -> list A) m x : In x (flat_map f (seq 0 m)) <-> exists r, r < m /\ In x (f r).
Proof. rewrite in_flat_map. split; intros [r [H1 H2]]; exists r; (split; [apply in_seq in H1 || apply in_seq; lia|exact H2]). Qed.
Section Agg.
Variable size : nat.
Variable mesh_of : nat -> mesh.
Hypothesis Hs : 1 <= size.
Definition agg_prog (r : nat) := aggregate size r (mesh_of r).
Definition agg_chor : list (msg payload) := flat_map (fun r => [Msg _ r 0 12 (Points (fst (mesh_of r))); Msg _ r 0 13 (Cells (snd (mesh_of r)))]) (seq 1 (size - 1)).
Lemma agg_project r : agg_prog r = project _ agg_chor r.
Proof.
  unfold agg_prog, aggregate, project, agg_chor. rewrite fm_fm. destruct (Nat.eqb_spec r 0) as [-> |N0].
  - apply fm_ext. intros k Hk. apply in_seq in Hk. unfold part. cbn. destruct k as [|k]; [lia|]. reflexivity.
  - destruct (Nat.ltb_spec r size) as [L|L].
    + replace (seq 1 (size - 1)) with (seq 1 (r - 1) ++ r :: seq (S r) (size - 1 - r)).
      * rewrite flat_map_app. cbn [flat_map].
        assert (forall k, k <> r -> part payload r (Msg _ k 0 12 (Points (fst (mesh_of k)))) ++ part payload r (Msg _ k 0 13 (Cells (snd (mesh_of k)))) ++ [] = []) as Z.
        { intros k NE. unfold part. cbn. replace (r =? k) with false by (symmetry; apply Nat.eqb_neq; congruence). replace (r =? 0) with false by (symmetry; apply Nat.eqb_neq; exact N0). reflexivity. }
        rewrite fm_nil by (intros k Hk; apply in_seq in Hk; apply Z; lia). rewrite (fm_nil _ (seq (S r) _)) by (intros k Hk; apply in_seq in Hk; apply Z; lia).
        unfold part. cbn. rewrite Nat.eqb_refl. reflexivity.
      * assert (seq 1 (r - 1) ++ seq r (size - r) = seq 1 (size - 1)) as <-.
        { replace r with (1 + (r - 1)) at 2 by lia. rewrite <- seq_app. f_equal. lia. }
        f_equal. replace (size - r) with (S (size - 1 - r)) by lia. reflexivity.
    + symmetry. apply fm_nil. intros k Hk. apply in_seq in Hk. unfold part. cbn. replace (r =? k) with false by (symmetry; apply Nat.eqb_neq; lia).
      replace (r =? 0) with false by (symmetry; apply Nat.eqb_neq; exact N0). reflexivity.
Qed.
Lemma agg_distinct x : In x agg_chor -> src _ x <> dst _ x.
Proof. intros H. apply in_flat_map in H. destruct H as [k [Hk [<- | [<- | []]]]]; apply in_seq in Hk; cbn; lia. Qed.
Lemma agg_len : length agg_chor = 2 * (size - 1).
Proof.
  unfold agg_chor. rewrite flat_map_concat_map. assert (forall l, length (concat (map (fun r => [Msg payload r 0 12 (Points (fst (mesh_of r))); Msg payload r 0 13 (Cells (snd (mesh_of r)))]) l)) = 2 * length l) as G.
  { induction l as [|a l IH]; [reflexivity|]. cbn [map concat]. rewrite app_length, IH. cbn [length]. lia. }
  rewrite G, seq_length. reflexivity.
Qed.
Lemma agg_log : flat_map (to _ 0) agg_chor = flat_map (fun r => [(r, Points (fst (mesh_of r))); (r, Cells (snd (mesh_of r)))]) (seq 1 (size - 1)).
Proof. unfold agg_chor. rewrite fm_fm. reflexivity. Qed.
Definition plen (r : nat) := length (fst (mesh_of r)).
Definition off (r : nat) := list_sum (map plen (seq 0 r)).
Lemma reduce_spec : reduce_sum size plen = map plen (seq 0 size).
Proof.
  unfold reduce_sum. apply map_ext_in. intros i Hi. apply in_seq in Hi.
  assert (forall a m, list_sum (map (fun r => if r =? i then plen r else 0) (seq a m)) = if (a <=? i) && (i <? a + m) then plen i else 0) as G.
  { intros a m. revert a. induction m as [|m IH]; intros a; [replace ((a <=? i) && (i <? a + 0)) with false; [reflexivity|]; symmetry; apply andb_false_iff; destruct (Nat.leb_spec a i); [right; apply Nat.ltb_ge; lia|left; reflexivity]|].
    cbn [seq map]. unfold list_sum in *. cbn [fold_right]. rewrite IH. destruct (Nat.eqb_spec a i) as [-> |NE].
    - replace (S i <=? i) with false by (symmetry; apply Nat.leb_gt; lia). rewrite Nat.leb_refl. replace (i <? i + S m) with true by (symmetry; apply Nat.ltb_lt; lia). cbn. lia.
    - replace (S a + m) with (a + S m) by lia. replace (S a <=? i) with (a <=? i); [reflexivity|]. destruct (Nat.leb_spec a i), (Nat.leb_spec (S a) i); try lia; reflexivity. }
  rewrite G. cbn [Nat.leb andb Nat.add]. replace (i <? size) with true by (symmetry; apply Nat.ltb_lt; lia). reflexivity.
Qed.
Lemma cumsum_nth l acc i : i < length l -> nth i (cumsum acc l) 0 = acc + list_sum (firstn (S i) l).
Proof.
  revert acc i. induction l as [|x l IH]; intros acc i L; [cbn in L; lia|]. cbn [cumsum]. destruct i as [|i]; [cbn; lia|]. cbn [nth]. cbn [length] in L. rewrite IH by lia.
  cbn [firstn]. unfold list_sum. cbn [fold_right]. lia.
Qed.
Lemma csum_off r : 1 <= r -> r <= size -> nth (r - 1) (cumsum 0 (map plen (seq 0 size))) 0 = off r.
Proof.
  intros L1 L2. rewrite cumsum_nth by (rewrite map_length, seq_length; lia). cbn [Nat.add]. replace (S (r - 1)) with r by lia. unfold off. rewrite firstn_map. do 2 f_equal.
  replace size with (r + (size - r)) by lia. rewrite seq_app, firstn_app, seq_length, Nat.sub_diag. cbn. rewrite app_nil_r. rewrite <- (seq_length r 0) at 1. apply firstn_all.
Qed.
Definition shifted (r : nat) : list (list nat) := map (map (fun v => v + off r)) (snd (mesh_of r)).
Lemma gather_spec m : forall r gp gt, 1 <= r -> r + m = size ->
  gather (cumsum 0 (map plen (seq 0 size))) r gp gt (map snd (flat_map (fun r => [(r, Points (fst (mesh_of r))); (r, Cells (snd (mesh_of r)))]) (seq r m))) =
  (gp ++ flat_map (fun i => fst (mesh_of i)) (seq r m), gt ++ flat_map shifted (seq r m)).
Proof.
  induction m as [|m IH]; intros r gp gt L E; [cbn; rewrite !app_nil_r; reflexivity|]. cbn [seq flat_map app map snd gather]. rewrite IH by lia. rewrite csum_off by lia.
  rewrite <- !app_assoc. reflexivity.
Qed.
Lemma off0 : off 0 = 0. Proof. reflexivity. Qed.
Lemma aggregated_spec : aggregated (mesh_of 0) (reduce_sum size plen) (flat_map (to _ 0) agg_chor) = (flat_map (fun i => fst (mesh_of i)) (seq 0 size), flat_map shifted (seq 0 size)).
Proof.
  unfold aggregated. rewrite reduce_spec, agg_log, gather_spec by lia. replace (seq 0 size) with (0 :: seq 1 (size - 1)) by (replace size with (S (size - 1)) at 2 by lia; reflexivity). cbn [flat_map]. f_equal. f_equal.
  unfold shifted. rewrite off0. symmetry. rewrite (map_ext (map (fun v => v + 0)) (fun x => x)); [apply map_id|]. intros l. rewrite (map_ext (fun v => v + 0) (fun v => v)); [apply map_id|]. intros v. lia.
Qed.
Lemma corner_eq r v : r < size -> v < plen r -> nth (v + off r) (flat_map (fun i => fst (mesh_of i)) (seq 0 size)) [] = nth v (fst (mesh_of r)) [].
Proof. intros L Lv. rewrite Nat.add_comm. apply (fm_nth (fun i => fst (mesh_of i)) [] r v size L Lv). Qed.
End Agg.
