(** Selection and table together *)
From Coq Require Import List ZArith Reals Bool Arith Lia Lra Sorted.
From Verif Require Import Model.Base Model.Simplex Model.Migration Model.WhereTo Spec.Linear Spec.Export Proofs.ListAux Proofs.MeshAux Proofs.WhereToProofs Proofs.ExportTable.
Import ListNotations.
Local Open Scope nat_scope.

Lemma filter_sorted (f : nat -> bool) a m : StronglySorted lt (filter f (seq a m)).
Proof.
  revert a. induction m as [|m IH]; intros a; [constructor|]. cbn [seq filter]. destruct (f a); [|apply IH]. constructor; [apply IH|].
  apply Forall_forall. intros x H. apply filter_In in H. destruct H as [H _]. apply in_seq in H. lia.
Qed.
Definition box_ok (d : nat) (b : corners) : Prop := length (fst b) = d /\ length (snd b) = d /\ Forall2 Rle (fst b) (snd b).

Section E.
Variable d : nat.
Hypothesis d1 : 1 <= d.
Variable meets : list (list R) -> corners -> bool.
Variables box1 box2 : corners.
Hypothesis B1 : box_ok d box1.
Hypothesis B2 : box_ok d box2.
Variables (points : list (list R)) (faces : list (list nat)).
Hypothesis M : mesh_ok d points faces.
Notation n := (length points).
Let dest := destination d meets box1 box2 points faces.
Let cell e := map (fun i => nth i points []) (nth e faces []).
Lemma faces_ne : Forall (fun c : list nat => c <> []) faces.
Proof. destruct M as [_ F]. eapply Forall_impl; [|exact F]. intros c [L _] ->. discriminate. Qed.
Lemma in_below v : In v (belowL points dest) <-> v < n /\ exists e, first_hit d meets box1 box2 points faces v e /\ meets (cell e) box1 = true.
Proof.
  unfold belowL. rewrite filter_In, in_seq. destruct (dest_spec d meets box1 box2 B1 B2 points faces faces_ne v) as [D _]. change (dest v = Some false <-> exists e, first_hit d meets box1 box2 points faces v e /\ meets (cell e) box1 = true) in D. rewrite <- D.
  unfold is_below. destruct (dest v) as [[|]|]; intuition (try lia; try discriminate).
Qed.
Lemma in_above v : In v (aboveL points dest) <-> v < n /\ exists e, first_hit d meets box1 box2 points faces v e /\ meets (cell e) box1 = false.
Proof.
  unfold aboveL. rewrite filter_In, in_seq. destruct (dest_spec d meets box1 box2 B1 B2 points faces faces_ne v) as [_ [D _]]. change (dest v = Some true <-> exists e, first_hit d meets box1 box2 points faces v e /\ meets (cell e) box1 = false) in D. rewrite <- D.
  unfold is_above. destruct (dest v) as [[|]|]; intuition (try lia; try discriminate).
Qed.
Lemma unsent : (exists v, v < n /\ forall e, ~ first_hit d meets box1 box2 points faces v e) <-> count (Some false) dest n + count (Some true) dest n < n.
Proof.
  pose proof (sent_le points dest) as LE. pose proof (sent_all points dest) as SA. split.
  - intros (v & Hv & N). destruct (Nat.eq_dec (count (Some false) dest n + count (Some true) dest n) n) as [E|E]; [|lia]. exfalso.
    apply (proj1 SA E v Hv). apply (dest_spec d meets box1 box2 B1 B2 points faces faces_ne v). intros (e & F). exact (N e F).
  - intros L. assert (~ forall v, v < n -> dest v <> None) as N by (rewrite <- SA; lia).
    destruct (existsb (fun v => match dest v with None => true | _ => false end) (seq 0 n)) eqn:X.
    + apply existsb_exists in X. destruct X as (v & I & Hd). apply in_seq in I. exists v. split; [lia|]. destruct (dest v) eqn:D; [discriminate|].
      apply (dest_spec d meets box1 box2 B1 B2 points faces faces_ne v) in D. intros e F. apply D. exists e. exact F.
    + exfalso. apply N. intros v Hv D. assert (existsb (fun v => match dest v with None => true | _ => false end) (seq 0 n) = true); [|congruence].
      apply existsb_exists. exists v. split; [apply in_seq; lia|]. rewrite D. reflexivity.
Qed.

Theorem table_exact unknown : (exists v, v < n /\ forall e, ~ first_hit d meets box1 box2 points faces v e) ->
  exists buf below above, where_to d meets box1 box2 points faces = Some buf /\ length buf = 1 + n * S d /\
   StronglySorted lt below /\ StronglySorted lt above /\
   (forall v, In v below <-> v < n /\ exists e, first_hit d meets box1 box2 points faces v e /\ meets (cell e) box1 = true) /\
   (forall v, In v above <-> v < n /\ exists e, first_hit d meets box1 box2 points faces v e /\ meets (cell e) box1 = false) /\
   (forall v, In v below -> ~ In v above) /\
   let t := table_view d n unknown buf in let e := read_table d t in
   nth 0 t [] = INR (length below) :: INR (length above) :: repeat 0%R (d - 1) /\
   firstn (length below) (tl t) = map (fun v => nth v points [] ++ [INR v]) below /\
   firstn (length above) (skipn (length below) (tl t)) = map (fun v => nth v points [] ++ [INR v]) above /\
   nsb e = length below /\ nsa e = length above /\
   firstn (nsb e) (rows e) = map (fun v => nth v points []) below /\
   firstn (nsa e) (skipn (nsb e) (rows e)) = map (fun v => nth v points []) above.
Proof.
  intros U. apply unsent in U. destruct M as [Pd _]. destruct (poked_ok d points dest Pd d1 U) as (buf & E & L & V).
  exists buf, (belowL points dest), (aboveL points dest). split; [exact E|]. split; [exact L|]. split; [apply filter_sorted|]. split; [apply filter_sorted|].
  split; [exact in_below|]. split; [exact in_above|]. split.
  { intros v I1 I2. unfold belowL, aboveL in *. apply filter_In in I1. apply filter_In in I2. unfold is_below, is_above in *. destruct (dest v) as [[|]|]; intuition discriminate. }
  intros t e. destruct (read_ok d points dest Pd d1 buf unknown U L V) as (R1 & R2 & R3 & R4 & R5 & R6). fold t in R5, R6. fold t e in R1, R2, R3, R4, R5, R6.
  rewrite <- R1, <- R2 at 1. split; [|split; [|split; [|split; [|split; [|split]]]]]; try assumption.
  - unfold t. rewrite (table_rows d points dest Pd d1 buf unknown 0 L U V (Nat.le_0_l _)). cbn [nth trows header]. unfold header. rewrite R1, R2, <- kb_len, <- ka_len. reflexivity.
  - rewrite <- R1. exact R5.
  - rewrite <- R1, <- R2. exact R6.
Qed.

Theorem out_of_bounds : (where_to d meets box1 box2 points faces = None <-> forall v, v < n -> exists e, first_hit d meets box1 box2 points faces v e) /\
  (forall buf, where_to d meets box1 box2 points faces = Some buf -> length buf = 1 + n * S d).
Proof.
  pose proof (sent_le points dest) as LE. destruct M as [Pd _]. destruct (Nat.eq_dec (count (Some false) dest n + count (Some true) dest n) n) as [E|E].
  - pose proof (poked_none d points dest Pd d1 E) as W. change (where_to d meets box1 box2 points faces = None) in W. rewrite W. split; [|discriminate]. split; [|reflexivity].
    intros _ v Hv. pose proof (proj1 (sent_all points dest) E v Hv) as N. destruct (dest_spec d meets box1 box2 B1 B2 points faces faces_ne v) as [D1 [D2 _]]. fold dest in D1, D2.
    destruct (dest v) as [[|]|]; [|destruct (proj1 D1 eq_refl) as (e & F & _); exists e; exact F|congruence].
    destruct (proj1 D2 eq_refl) as (e & F & _); exists e; exact F.
  - assert (count (Some false) dest n + count (Some true) dest n < n) as U by lia. destruct (poked_ok d points dest Pd d1 U) as (buf & W & L & _).
    change (where_to d meets box1 box2 points faces = Some buf) in W. rewrite W. split.
    + split; [discriminate|]. intros A. exfalso. apply unsent in U. destruct U as (v & Hv & N). destruct (A v Hv) as (e & F). exact (N e F).
    + intros b [= <-]. exact L.
Qed.
Lemma view_beyond buf unknown j : length buf = 1 + n * S d -> 1 <= j <= d -> nth j (nth n (table_view d n unknown buf) []) 0%R = unknown (n * S d + j).
Proof.
  intros L H. unfold table_view. rewrite (nth_map' _ _ n [] 0) by (rewrite seq_length; lia). rewrite seq_nth by lia. cbn [Nat.add].
  rewrite (nth_map' _ _ j 0%R 0) by (rewrite seq_length; lia). rewrite seq_nth by lia. cbn [Nat.add]. destruct (Nat.ltb_spec (n * S d + j) (length buf)); [lia|reflexivity].
Qed.
End E.

Lemma simplex_at d points faces e : mesh_ok d points faces -> e < length faces -> simplex_points d (map (fun i => nth i points []) (nth e faces [])).
Proof.
  intros [P F] L. rewrite Forall_forall in F. destruct (F _ (nth_In faces [] L)) as [Lc Fc]. split; [rewrite map_length; exact Lc|].
  apply Forall_forall. intros p Hp. apply in_map_iff in Hp. destruct Hp as (i & <- & I). rewrite Forall_forall in Fc, P. apply P, nth_In, Fc, I.
Qed.
