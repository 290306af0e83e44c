From Coq Require Import List ZArith Reals Bool Arith Lia.
From Verif Require Import Model.Base Model.MPI Model.InitGrid Model.Blocker Model.Localize Proofs.Choreo Proofs.MeshAux Proofs.ExchangeProofs.
Import ListNotations.
Local Open Scope nat_scope.

Section Loc.
Variable lfh : nat -> lmsg.
Variable size : nat.
Variable blocks : list (list (list R)).
Variable extents : list (list R).
Notation Msg' := (Msg lmsg).
Definition fan (t : nat) (f : nat -> lmsg) : list (msg lmsg) := map (fun r => Msg' 0 r t (f r)) (seq 1 (size - 1)).
Definition rounds (locals : list nat) : list (msg lmsg) := flat_map (fun l => Msg' 0 l 12 (LBlock (nth l blocks [])) :: fan coll (fun _ => LExtents extents)) locals.
Definition loc_chor : list (msg lmsg) := fan 11 lfh ++ rounds (seq 1 (size - 1)).
Lemma fan_project t f r : project _ (fan t f) r = if r =? 0 then map (fun q => Send q t (f q)) (seq 1 (size - 1)) else if r <? size then [Recv 0 t] else [].
Proof.
  unfold project, fan. rewrite fm_map. destruct (Nat.eqb_spec r 0) as [-> |N0].
  - induction (seq 1 (size - 1)) as [|k l IH]; [reflexivity|]. cbn [flat_map map]. rewrite IH. reflexivity.
  - assert (forall a m, (1 <= a) -> flat_map (fun x => part lmsg r (Msg' 0 x t (f x))) (seq a m) = if (a <=? r) && (r <? a + m) then [Recv 0 t] else []) as G.
    { intros a m. revert a. induction m as [|m IH]; intros a La.
      - cbn [seq flat_map]. destruct (Nat.leb_spec a r), (Nat.ltb_spec r (a + 0)); cbn [andb]; try reflexivity; lia.
      - cbn [seq flat_map]. rewrite IH by lia. unfold part. cbn [src dst]. replace (r =? 0) with false by (symmetry; apply Nat.eqb_neq; exact N0).
        destruct (Nat.eqb_spec r a); destruct (Nat.leb_spec a r), (Nat.leb_spec (S a) r), (Nat.ltb_spec r (S a + m)), (Nat.ltb_spec r (a + S m)); cbn [andb app]; try reflexivity; lia. }
    rewrite G by lia. destruct (Nat.leb_spec 1 r), (Nat.ltb_spec r size), (Nat.ltb_spec r (1 + (size - 1))); cbn [andb]; try reflexivity; lia.
Qed.
Lemma rounds_project_0 locals : (forall l, In l locals -> l < length blocks) -> project _ (rounds locals) 0 = deal size blocks extents locals.
Proof.
  induction locals as [|l t IH]; intros H; [reflexivity|]. cbn [rounds flat_map deal]. rewrite (nth_error_nth' blocks []) by (apply H; left; reflexivity).
  unfold project. rewrite fm_app. cbn [flat_map]. change (flat_map (part lmsg 0) (fan coll (fun _ => LExtents extents))) with (project _ (fan coll (fun _ => LExtents extents)) 0). rewrite fan_project.
  change (flat_map (part lmsg 0) (flat_map _ t)) with (project _ (rounds t) 0). rewrite IH by (intros x Hx; apply H; right; exact Hx). reflexivity.
Qed.
Lemma rounds_project r locals : r <> 0 -> r < size -> project _ (rounds locals) r = flat_map (fun local => (if r =? local then [Recv 0 12] else []) ++ [Recv 0 coll]) locals.
Proof.
  intros N L. induction locals as [|l t IH]; [reflexivity|]. cbn [rounds flat_map]. unfold project in *. rewrite fm_app. cbn [flat_map].
  change (flat_map (part lmsg r) (fan coll (fun _ => LExtents extents))) with (project _ (fan coll (fun _ => LExtents extents)) r). rewrite fan_project.
  fold (rounds t). rewrite IH. apply Nat.eqb_neq in N as N'. rewrite N'. apply Nat.ltb_lt in L. rewrite L. unfold part. cbn [src dst]. rewrite N'. reflexivity.
Qed.
Lemma rounds_out r locals : size <= r -> (forall l, In l locals -> l < size) -> r <> 0 -> project _ (rounds locals) r = [].
Proof.
  intros L H N. induction locals as [|l t IH]; [reflexivity|]. cbn [rounds flat_map]. unfold project in *. rewrite fm_app. cbn [flat_map].
  change (flat_map (part lmsg r) (fan coll (fun _ => LExtents extents))) with (project _ (fan coll (fun _ => LExtents extents)) r). rewrite fan_project.
  fold (rounds t). rewrite IH by (intros x Hx; apply H; right; exact Hx). apply Nat.eqb_neq in N as N'. rewrite N'. apply Nat.ltb_ge in L as L'. rewrite L'. unfold part. cbn [src dst]. rewrite N'.
  assert (l < size) by (apply H; left; reflexivity). replace (r =? l) with false by (symmetry; apply Nat.eqb_neq; lia). reflexivity.
Qed.
Hypothesis Hs : 2 <= size.
Hypothesis Hb : size <= length blocks.
Lemma loc_project r : user_defined_points lfh size (Ok (blocks, extents)) r = project _ loc_chor r.
Proof.
  unfold loc_chor, project. rewrite fm_app. change (flat_map (part lmsg r) (fan 11 lfh)) with (project _ (fan 11 lfh) r). change (flat_map (part lmsg r) (rounds ?l)) with (project _ (rounds l) r).
  rewrite fan_project. unfold user_defined_points. destruct (Nat.eqb_spec r 0) as [-> |N0].
  - rewrite rounds_project_0 by (intros l Hl; apply in_seq in Hl; lia). reflexivity.
  - unfold localize_sizing, localize_points. apply Nat.eqb_neq in N0 as N'. rewrite N'. destruct (Nat.ltb_spec r size) as [L|L].
    + rewrite rounds_project by assumption. reflexivity.
    + rewrite rounds_out; [reflexivity|exact L| |exact N0]. intros l Hl. apply in_seq in Hl. lia.
Qed.
Lemma loc_distinct x : In x loc_chor -> src _ x <> dst _ x.
Proof.
  assert (forall u f, In x (fan u f) -> src _ x <> dst _ x) as F. { intros u f H. apply in_map_iff in H. destruct H as (k & <- & Hk). apply in_seq in Hk. cbn. lia. }
  intros H. apply in_app_or in H. destruct H as [H|H]; [exact (F _ _ H)|]. apply in_flat_map in H. destruct H as (l & Hl & [<-|H]); [apply in_seq in Hl; cbn; lia|exact (F _ _ H)].
Qed.
Lemma loc_len : length loc_chor = (size - 1) * (size + 1).
Proof.
  assert (forall u f, length (fan u f) = size - 1) as F by (intros u f; unfold fan; rewrite map_length, seq_length; reflexivity).
  assert (forall l, length (rounds l) = length l * size) as G. { induction l as [|a l IH]; [reflexivity|]. cbn [rounds flat_map length]. rewrite app_length. cbn [length]. fold (rounds l). rewrite IH, F. lia. }
  unfold loc_chor. rewrite app_length, F, G, seq_length. lia.
Qed.
(** what rank r receives *)
Lemma fan_to u f r : r <> 0 -> r < size -> flat_map (to _ r) (fan u f) = [(0, f r)].
Proof.
  intros N L. unfold fan. rewrite fm_map.
  replace (size - 1) with ((r - 1) + S (size - 1 - r)) by lia. rewrite seq_app, flat_map_app. cbn [seq flat_map]. replace (1 + (r - 1)) with r by lia.
  rewrite !fm_nil by (intros k Hk; apply in_seq in Hk; unfold to; cbn [dst]; replace (r =? k) with false by (symmetry; apply Nat.eqb_neq; lia); reflexivity).
  unfold to. cbn. rewrite Nat.eqb_refl. reflexivity.
Qed.
Lemma rounds_to r locals : r <> 0 -> r < size -> map snd (flat_map (to _ r) (rounds locals)) = flat_map (fun l => (if r =? l then [LBlock (nth l blocks [])] else []) ++ [LExtents extents]) locals.
Proof.
  intros N L. induction locals as [|l t IH]; [reflexivity|]. cbn [rounds flat_map]. rewrite fm_app, map_app. cbn [flat_map]. fold (rounds t). rewrite IH.
  rewrite fan_to by assumption. unfold to. cbn [dst src body]. rewrite map_app. destruct (r =? l); reflexivity.
Qed.
Lemma read_rounds r locals : forall pe, r <> 0 -> r < size -> NoDup locals -> locals <> [] ->
  read_points r locals (flat_map (fun l => (if r =? l then [LBlock (nth l blocks [])] else []) ++ [LExtents extents]) locals) pe =
  (if in_dec Nat.eq_dec r locals then Some (LBlock (nth r blocks [])) else fst pe, Some (LExtents extents)).
Proof.
  induction locals as [|l t IH]; intros pe N L ND NE; [congruence|]. inversion ND as [|? ? NI ND']; subst. cbn [read_points flat_map].
  destruct (Nat.eqb_spec r l) as [-> |Nl].
  - cbn [app hd_error tl]. destruct t as [|l' t'].
    + cbn. destruct (Nat.eq_dec l l); [reflexivity|congruence].
    + rewrite IH by (assumption || discriminate). destruct (in_dec Nat.eq_dec l (l' :: t')) as [i|_]; [contradiction|]. destruct (in_dec Nat.eq_dec l (l :: l' :: t')) as [_|n]; [reflexivity|]. exfalso. apply n. left. reflexivity.
  - cbn [app hd_error tl]. destruct t as [|l' t'].
    + cbn. destruct (Nat.eq_dec l r); [congruence|]. reflexivity.
    + rewrite IH by (assumption || discriminate). destruct (in_dec Nat.eq_dec r (l' :: t')) as [i|n]; destruct (in_dec Nat.eq_dec r (l :: l' :: t')) as [i'|n']; try reflexivity.
      * exfalso. apply n'. right. exact i.
      * exfalso. destruct i' as [E|i']; [congruence|contradiction].
Qed.
Lemma loc_result r log : r <> 0 -> r < size -> log = flat_map (to _ r) loc_chor ->
  local_result size r log = (Some (lfh r), (Some (LBlock (nth r blocks [])), Some (LExtents extents))).
Proof.
  intros N L ->. unfold local_result, loc_chor. rewrite fm_app, fan_to, map_app by assumption. cbn [map snd app hd_error tl]. rewrite rounds_to by assumption.
  rewrite read_rounds; [|exact N|exact L|apply seq_NoDup|replace (size - 1) with (S (size - 2)) by lia; discriminate].
  destruct (in_dec Nat.eq_dec r (seq 1 (size - 1))) as [_|n]; [reflexivity|]. exfalso. apply n. apply in_seq. lia.
Qed.
End Loc.

(** ---- too few blocks ---- *)
Section Few.
Variable lfh : nat -> lmsg.
Variable size : nat.
Variable blocks : list (list (list R)).
Variable extents : list (list R).
Lemma sends_app q l1 l2 : sends lmsg q (l1 ++ l2) = sends lmsg q l1 + sends lmsg q l2.
Proof. unfold sends. rewrite filter_app, app_length. reflexivity. Qed.
Lemma recvs_app q l1 l2 : recvs lmsg q (l1 ++ l2) = recvs lmsg q l1 + recvs lmsg q l2.
Proof. unfold recvs. rewrite filter_app, app_length. reflexivity. Qed.
Lemma sends_fan t f r : r <> 0 -> sends lmsg r (map (fun q => Send q t (f q)) (seq 1 (size - 1))) <= 1.
Proof.
  intros N. assert (forall a m, sends lmsg r (map (fun q => Send q t (f q)) (seq a m)) <= if a <=? r then 1 else 0) as G.
  { intros a m. revert a. induction m as [|m IH]; intros a; [unfold sends; cbn; lia|]. cbn [seq map]. specialize (IH (S a)). unfold sends in *. cbn [filter is_send_to].
    destruct (Nat.eqb_spec a r); cbn [length]; destruct (Nat.leb_spec a r), (Nat.leb_spec (S a) r); lia. }
  specialize (G 1 (size - 1)). destruct (1 <=? r); lia.
Qed.
(** rank 0 serves local = 1, .., length blocks - 1 only *)
Lemma deal_sends r m : forall a, r <> 0 -> sends lmsg r (deal size blocks extents (seq a m)) <= Nat.min m (length blocks - a) + if (a <=? r) && (r <? a + Nat.min m (length blocks - a)) then 1 else 0.
Proof.
  induction m as [|m IH]; intros a N; [unfold sends; cbn; lia|]. cbn [seq deal]. destruct (nth_error blocks a) as [b|] eqn:E.
  - assert (a < length blocks) as La by (apply nth_error_Some; congruence). specialize (IH (S a) N).
    change (Send a 12 (LBlock b) :: bcast size 0 (LExtents extents) ++ deal size blocks extents (seq (S a) m)) with ([Send a 12 (LBlock b)] ++ bcast size 0 (LExtents extents) ++ deal size blocks extents (seq (S a) m)).
    rewrite !sends_app. pose proof (sends_fan coll (fun _ => LExtents extents) r N) as F. unfold bcast. cbn [Nat.eqb].
    replace (Nat.min (S m) (length blocks - a)) with (S (Nat.min m (length blocks - S a))) by lia. set (k := Nat.min m (length blocks - S a)) in *.
    unfold sends at 1. cbn [filter is_send_to]. destruct (Nat.eqb_spec a r) as [-> |]; cbn [length].
    + assert (((S r <=? r) && (r <? S r + k)) = false) as X by (replace (S r <=? r) with false by (symmetry; apply Nat.leb_gt; lia); reflexivity). rewrite X in IH.
      rewrite Nat.leb_refl. replace (r <? r + S k) with true by (symmetry; apply Nat.ltb_lt; lia). cbn [andb]. lia.
    + destruct ((S a <=? r) && (r <? S a + k)) eqn:X.
      * apply andb_true_iff in X. destruct X as [X1 X2]. apply Nat.leb_le in X1. apply Nat.ltb_lt in X2. replace (a <=? r) with true by (symmetry; apply Nat.leb_le; lia). replace (r <? a + S k) with true by (symmetry; apply Nat.ltb_lt; lia). cbn [andb]. lia.
      * lia.
  - unfold sends. cbn. lia.
Qed.
Lemma recvs_rounds r m : forall a, recvs lmsg 0 (flat_map (fun local => (if r =? local then [Recv 0 12] else []) ++ [Recv 0 coll]) (seq a m)) = m + if (a <=? r) && (r <? a + m) then 1 else 0.
Proof.
  induction m as [|m IH]; intros a.
  - unfold recvs. cbn [seq flat_map filter length]. destruct (Nat.leb_spec a r), (Nat.ltb_spec r (a + 0)); cbn [andb]; lia.
  - cbn [seq flat_map]. rewrite !recvs_app, IH. destruct (Nat.eqb_spec r a) as [-> |]; unfold recvs; cbn [filter is_recv_from Nat.eqb length].
    + rewrite Nat.leb_refl. replace (S a <=? a) with false by (symmetry; apply Nat.leb_gt; lia). replace (a <? a + S m) with true by (symmetry; apply Nat.ltb_lt; lia). cbn. lia.
    + destruct (Nat.leb_spec a r), (Nat.leb_spec (S a) r), (Nat.ltb_spec r (S a + m)), (Nat.ltb_spec r (a + S m)); cbn [andb]; lia.
Qed.
Lemma few_starve r : r <> 0 -> r < size -> length blocks < size ->
  sends lmsg r (user_defined_points lfh size (Ok (blocks, extents)) 0) < recvs lmsg 0 (user_defined_points lfh size (Ok (blocks, extents)) r).
Proof.
  intros N L F. unfold user_defined_points, localize_sizing, localize_points. cbn [Nat.eqb]. apply Nat.eqb_neq in N as N'. rewrite N'. apply Nat.ltb_lt in L as L'. rewrite L'.
  rewrite sends_app, recvs_app, recvs_rounds. replace (1 <=? r) with true by (symmetry; apply Nat.leb_le; lia). replace (r <? 1 + (size - 1)) with true by (symmetry; apply Nat.ltb_lt; lia). cbn [andb].
  pose proof (sends_fan 11 lfh r N). pose proof (deal_sends r (size - 1) 1 N) as D. unfold recvs. cbn [filter is_recv_from Nat.eqb length].
  destruct ((1 <=? r) && _); lia.
Qed.
Lemma error_starve r blk : r <> 0 -> r < size -> (forall x, blk <> Ok x) ->
  sends lmsg r (user_defined_points lfh size blk 0) < recvs lmsg 0 (user_defined_points lfh size blk r).
Proof.
  intros N L F. unfold user_defined_points, localize_sizing, localize_points. cbn [Nat.eqb]. apply Nat.eqb_neq in N as N'. rewrite N'. apply Nat.ltb_lt in L as L'. rewrite L'.
  assert (match blk with Ok (b, e) => map (fun r0 => Send r0 11 (lfh r0)) (seq 1 (size - 1)) ++ deal size b e (seq 1 (size - 1)) | _ => [] end = []) as -> by (destruct blk as [[b e]|]; [destruct (F (b, e) eq_refl)|reflexivity]).
  rewrite recvs_app. unfold sends, recvs. cbn [filter is_recv_from Nat.eqb length]. lia.
Qed.
End Few.
