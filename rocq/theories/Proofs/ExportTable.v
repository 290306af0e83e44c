(** The table of exports: Model/WhereTo.v where_to, table_view, read_table *)
From Coq Require Import List ZArith Reals Bool Arith Lia Lra Sorted.
From Flocq Require Import Core.
From Verif Require Import Model.Base Model.Simplex Model.Migration Model.WhereTo Spec.Linear Spec.Export Proofs.ListAux Proofs.MeshAux Proofs.WhereToProofs.
Import ListNotations.
Local Open Scope nat_scope.

Lemma upd_nth_same {A} (l : list A) k x dflt : k < length l -> nth k (upd l k x) dflt = x.
Proof. revert k. induction l as [|a l IH]; intros [|k] H; cbn in *; try lia; [reflexivity|]. apply IH. lia. Qed.
Lemma upd_nth_other {A} (l : list A) k j x dflt : j <> k -> nth j (upd l k x) dflt = nth j l dflt.
Proof. revert k j. induction l as [|a l IH]; intros [|k] [|j] H; cbn in *; try reflexivity; try lia. apply IH. lia. Qed.
Lemma upd_len {A} (l : list A) k x : length (upd l k x) = length l.
Proof. revert k. induction l as [|a l IH]; intros [|k]; cbn; auto. Qed.

Lemma poke_ok ws : forall buf, (forall k x, In (k, x) ws -> k < length buf) ->
  exists buf', poke buf ws = Some buf' /\ length buf' = length buf /\
   forall f, (forall k x, In (k, x) ws -> x = f k) -> forall k, k < length buf -> (exists x, In (k, x) ws) \/ nth k buf 0%R = f k -> nth k buf' 0%R = f k.
Proof.
  induction ws as [|[k x] ws IH]; intros buf H.
  - exists buf. repeat split. intros f _ k _ [[x []]|E]. exact E.
  - cbn [poke]. assert (k < length buf) as L by (apply (H k x); left; reflexivity). apply Nat.ltb_lt in L. rewrite L. apply Nat.ltb_lt in L.
    destruct (IH (upd buf k x)) as (buf' & E & Le & V). { intros k' x' I. rewrite upd_len. apply (H k' x'). right. exact I. }
    exists buf'. split; [exact E|]. rewrite upd_len in Le. split; [exact Le|]. intros f Hf k' L' C. rewrite upd_len in V.
    apply V; [intros k0 x0 I; apply Hf; right; exact I|exact L'|]. destruct (Nat.eq_dec k' k) as [->|N].
    + right. rewrite upd_nth_same by exact L. apply Hf. left. reflexivity.
    + rewrite upd_nth_other by exact N. destruct C as [[x' [X|I]]|C]; [congruence|left; exists x'; exact I|right; exact C].
Qed.
Lemma poke_none ws : forall buf k x, In (k, x) ws -> length buf <= k -> poke buf ws = None.
Proof.
  induction ws as [|[k0 x0] ws IH]; intros buf k x H L; [destruct H|destruct H as [E|I]]; cbn [poke].
  - injection E as -> ->. destruct (Nat.ltb_spec k (length buf)); [lia|reflexivity].
  - destruct (k0 <? length buf); [|reflexivity]. apply (IH _ k x I). rewrite upd_len. exact L.
Qed.

Lemma in_combine_seq (l : list R) base k x : In (k, x) (combine (seq base (length l)) l) <-> exists j, j < length l /\ k = base + j /\ x = nth j l 0%R.
Proof.
  revert base. induction l as [|a l IH]; intros base; cbn.
  - split; [intros []|intros (j & H & _); lia].
  - rewrite IH. split.
    + intros [E|(j & L & -> & ->)]; [injection E as <- <-; exists 0; repeat split; lia|exists (S j); repeat split; lia].
    + intros ([|j] & L & -> & ->); [left; f_equal; lia|right; exists j; repeat split; lia].
Qed.

Lemma slice_eq0 {A} (l l' : list A) k dflt : length l' = k -> k <= length l -> (forall i, i < length l' -> nth i l dflt = nth i l' dflt) -> firstn k l = l'.
Proof.
  revert l' k. induction l as [|a l IH]; intros [|b l'] [|k] L1 L2 H; cbn in *; try lia; try reflexivity. f_equal; [apply (H 0); lia|].
  apply IH; [lia|lia|]. intros i Hi. apply (H (S i)). lia.
Qed.
Lemma slice_eq {A} (l l' : list A) m k dflt : length l' = k -> m + k <= length l -> (forall i, i < length l' -> nth (m + i) l dflt = nth i l' dflt) -> firstn k (skipn m l) = l'.
Proof.
  revert l. induction m as [|m IH]; intros l L1 L2 H; [cbn; apply slice_eq0 with dflt; assumption|]. destruct l as [|a l]; cbn [skipn].
  - cbn in L2. lia.
  - apply IH; [exact L1|cbn in L2; lia|exact H].
Qed.
Section T.
Variable d : nat.
Variable points : list (list R).
Variable dest : nat -> option bool.
Notation n := (length points).
Hypothesis Pd : Forall (fun p => length p = d) points.
Definition is_below v := match dest v with Some false => true | _ => false end.
Definition is_above v := match dest v with Some true => true | _ => false end.
Definition cols v := firstn d (nth v points []) ++ [INR v].
Definition belowL := filter is_below (seq 0 n).
Definition aboveL := filter is_above (seq 0 n).
Lemma cols_len v : v < n -> length (cols v) = S d.
Proof. intros H. unfold cols. rewrite app_length, firstn_length. cbn. rewrite Forall_forall in Pd. rewrite (Pd (nth v points [])) by (apply nth_In, H). lia. Qed.

Lemma in_row_writes base v k x : v < n -> In (k, x) (row_writes d points base v) <-> exists j, j <= d /\ k = base + j /\ x = nth j (cols v) 0%R.
Proof.
  intros H. unfold row_writes. fold (cols v). rewrite <- (cols_len v H), in_combine_seq, (cols_len v H).
  split; intros (j & L & E); exists j; (split; [lia|exact E]).
Qed.
Lemma in_export_writes kb vs : Forall (fun v => v < n) vs -> forall bc ac k x, In (k, x) (export_writes d points dest kb vs bc ac) <->
  exists j, j <= d /\ ((exists i, i < length (filter is_below vs) /\ k = S (bc + i) * S d + j /\ x = nth j (cols (nth i (filter is_below vs) 0)) 0%R) \/
    (exists i, i < length (filter is_above vs) /\ k = S (kb + ac + i) * S d + j /\ x = nth j (cols (nth i (filter is_above vs) 0)) 0%R)).
Proof.
  induction vs as [|v vs IH]; intros F bc ac k x.
  - cbn. split; [intros []|intros (j & _ & [(i & L & _)|(i & L & _)]); lia].
  - inversion F as [|? ? Hv F']; subst. specialize (IH F'). cbn [export_writes filter].
    assert (is_below v = match dest v with Some false => true | _ => false end) as EB by reflexivity.
    assert (is_above v = match dest v with Some true => true | _ => false end) as EA by reflexivity.
    destruct (dest v) as [[|]|] eqn:D; rewrite EB, EA.
    + rewrite in_app_iff, in_row_writes, IH by exact Hv. split.
      * intros [(j & L & -> & ->)|(j & L & [(i & Li & -> & ->)|(i & Li & -> & ->)])]; exists j; (split; [exact L|]).
        -- right. exists 0. cbn [length nth]. repeat split; lia.
        -- left. exists i. repeat split; lia.
        -- right. exists (S i). cbn [length nth]. repeat split; lia.
      * intros (j & L & [(i & Li & -> & ->)|([|i] & Li & -> & ->)]).
        -- right. exists j. split; [exact L|]. left. exists i. repeat split; lia.
        -- left. exists j. cbn [nth]. repeat split; lia.
        -- right. exists j. split; [exact L|]. right. exists i. cbn [length nth] in *. repeat split; lia.
    + rewrite in_app_iff, in_row_writes, IH by exact Hv. split.
      * intros [(j & L & -> & ->)|(j & L & [(i & Li & -> & ->)|(i & Li & -> & ->)])]; exists j; (split; [exact L|]).
        -- left. exists 0. cbn [length nth]. repeat split; lia.
        -- left. exists (S i). cbn [length nth]. repeat split; lia.
        -- right. exists i. repeat split; lia.
      * intros (j & L & [([|i] & Li & -> & ->)|(i & Li & -> & ->)]).
        -- left. exists j. cbn [nth]. repeat split; lia.
        -- right. exists j. split; [exact L|]. left. exists i. cbn [length nth] in *. repeat split; lia.
        -- right. exists j. split; [exact L|]. right. exists i. repeat split; lia.
    + apply IH.
Qed.

Notation kb := (count (Some false) dest n).
Notation ka := (count (Some true) dest n).
Lemma kb_len : kb = length belowL.
Proof. reflexivity. Qed.
Lemma ka_len : ka = length aboveL.
Proof. reflexivity. Qed.
Lemma sent_le : kb + ka <= n.
Proof.
  rewrite kb_len, ka_len. unfold belowL, aboveL. rewrite <- (seq_length n 0) at 3. induction (seq 0 n) as [|v l IH]; [reflexivity|]. cbn [filter length].
  unfold is_below at 1, is_above at 1. destruct (dest v) as [[|]|]; cbn [length]; lia.
Qed.
Lemma sent_all : kb + ka = n <-> forall v, v < n -> dest v <> None.
Proof.
  rewrite kb_len, ka_len. unfold belowL, aboveL. assert (forall l, length (filter is_below l) + length (filter is_above l) <= length l) as LE.
  { intros l. induction l as [|v l IH]; [reflexivity|]. cbn [filter length]. unfold is_below at 1, is_above at 1. destruct (dest v) as [[|]|]; cbn [length]; lia. }
  assert (forall l, length (filter is_below l) + length (filter is_above l) = length l <-> forall v, In v l -> dest v <> None) as H.
  { intros l. induction l as [|v l IH]; [cbn; tauto|]. specialize (LE l). cbn [filter length]. unfold is_below at 1, is_above at 1. destruct (dest v) as [[|]|] eqn:D; cbn [length].
    - rewrite <- plus_n_Sm. split.
      + intros E w [<-|I]; [congruence|]. apply (proj1 IH); [lia|exact I].
      + intros E. f_equal. apply IH. intros w I. apply E. right. exact I.
    - split.
      + intros E w [<-|I]; [congruence|]. apply (proj1 IH); [lia|exact I].
      + intros E. cbn. f_equal. apply IH. intros w I. apply E. right. exact I.
    - split; [lia|]. intros E. exfalso. apply (E v); [left; reflexivity|exact D]. }
  rewrite <- (seq_length n 0) at 3. rewrite H. split; intros E v; [intros L; apply E, in_seq; lia|intros I; apply E; apply in_seq in I; lia].
Qed.

Hypothesis d1 : 1 <= d.
Notation writes := (export_writes d points dest kb (seq 0 n) 0 0 ++ header_writes d kb ka).
Definition header := INR kb :: INR ka :: repeat 0%R (d - 1).
Lemma header_len : length header = S d. Proof. unfold header. cbn. rewrite repeat_length. lia. Qed.
Definition trows := header :: map cols (belowL ++ aboveL).
Definition value k := nth (k mod S d) (nth (k / S d) trows []) 0%R.
Lemma value_at r j : j <= d -> value (r * S d + j) = nth j (nth r trows []) 0%R.
Proof.
  intros H. unfold value. replace (r * S d + j) with (j + r * S d) by lia. rewrite Nat.mod_add, Nat.div_add by lia.
  rewrite (Nat.mod_small j), (Nat.div_small j) by lia. reflexivity.
Qed.
Lemma seq_lt : Forall (fun v => v < n) (seq 0 n).
Proof. apply Forall_forall. intros v H. apply in_seq in H. lia. Qed.
Lemma in_writes k x : In (k, x) writes <-> exists r j, r <= kb + ka /\ j <= d /\ k = r * S d + j /\ x = nth j (nth r trows []) 0%R.
Proof.
  rewrite in_app_iff, (in_export_writes kb _ seq_lt). fold belowL aboveL. rewrite <- kb_len, <- ka_len. unfold header_writes. fold header. rewrite <- header_len at 1. rewrite in_combine_seq, header_len. split.
  - intros [(j & L & [(i & Li & -> & ->)|(i & Li & -> & ->)])|(j & L & -> & ->)].
    + exists (S i), j. cbn [Nat.add]. split; [lia|]. split; [exact L|]. split; [reflexivity|]. cbn [nth trows]. rewrite kb_len in Li. rewrite (nth_map' _ _ _ [] 0) by (rewrite app_length; lia). rewrite app_nth1 by exact Li. reflexivity.
    + exists (S (kb + 0 + i)), j. split; [lia|]. split; [exact L|]. split; [reflexivity|]. cbn [nth trows]. rewrite (nth_map' _ _ _ [] 0) by (rewrite app_length, <- kb_len, <- ka_len; lia).
      rewrite app_nth2 by (rewrite <- kb_len; lia). rewrite <- kb_len. replace (kb + 0 + i - kb) with i by lia. reflexivity.
    + exists 0, j. repeat split; try lia.
  - intros ([|r] & j & Lr & L & -> & ->).
    + right. exists j. repeat split; lia.
    + left. exists j. split; [exact L|]. cbn [nth trows]. rewrite (nth_map' _ _ _ [] 0) by (rewrite app_length, <- kb_len, <- ka_len; lia). destruct (Nat.lt_ge_cases r kb) as [C|C].
      * left. exists r. split; [exact C|]. split; [reflexivity|]. rewrite app_nth1 by (rewrite <- kb_len; exact C). reflexivity.
      * right. exists (r - kb). split; [lia|]. split; [f_equal; f_equal; lia|]. rewrite app_nth2 by (rewrite <- kb_len; exact C). rewrite <- kb_len. reflexivity.
Qed.

Definition buffer := repeat (-1)%R (1 + n * S d).
Lemma buffer_len : length buffer = 1 + n * S d. Proof. apply repeat_length. Qed.
Lemma poked_ok : kb + ka < n -> exists buf, poke buffer writes = Some buf /\ length buf = 1 + n * S d /\
  forall r j, r <= kb + ka -> j <= d -> nth (r * S d + j) buf 0%R = nth j (nth r trows []) 0%R.
Proof.
  intros H. destruct (poke_ok writes buffer) as (buf & E & Le & V).
  - intros k x I. rewrite buffer_len. apply in_writes in I. destruct I as (r & j & Lr & Lj & -> & _). nia.
  - exists buf. rewrite buffer_len in *. split; [exact E|]. split; [exact Le|]. intros r j Lr Lj. rewrite <- value_at by exact Lj. apply V.
    + intros k x I. apply in_writes in I. destruct I as (r' & j' & _ & Lj' & -> & ->). rewrite value_at by exact Lj'. reflexivity.
    + nia.
    + left. exists (nth j (nth r trows []) 0%R). apply in_writes. exists r, j. auto.
Qed.
Lemma poked_none : kb + ka = n -> poke buffer writes = None.
Proof.
  intros H. apply (poke_none _ _ (n * S d + 1) (nth 1 (nth n trows []) 0%R)); [|rewrite buffer_len; lia].
  apply in_writes. exists n, 1. repeat split; lia.
Qed.

(** reading the view *)
Lemma table_row buf unknown r : length buf = 1 + n * S d -> r < n -> nth r (table_view d n unknown buf) [] = map (fun j => nth (r * S d + j) buf 0%R) (seq 0 (S d)).
Proof.
  intros L H. unfold table_view. rewrite (nth_map' _ _ r [] 0) by (rewrite seq_length; lia). rewrite seq_nth by lia. apply map_ext_in. intros j I. apply in_seq in I.
  cbn [Nat.add]. destruct (Nat.ltb_spec (r * S d + j) (length buf)); [reflexivity|]. nia.
Qed.
Lemma table_len buf unknown : length (table_view d n unknown buf) = 1 + n.
Proof. unfold table_view. rewrite map_length, seq_length. reflexivity. Qed.
Lemma list_by_nth (l : list R) m : length l = m -> map (fun j => nth j l 0%R) (seq 0 m) = l.
Proof.
  intros <-. apply nth_ext with 0%R 0%R; [rewrite map_length, seq_length; reflexivity|]. intros j H. rewrite map_length, seq_length in H.
  rewrite (nth_map' _ _ j 0%R 0) by (rewrite seq_length; exact H). rewrite seq_nth by exact H. reflexivity.
Qed.
Lemma below_lt i : i < length belowL -> nth i belowL 0 < n.
Proof. intros H. assert (In (nth i belowL 0) belowL) as I by (apply nth_In, H). apply filter_In in I. destruct I as [I _]. apply in_seq in I. lia. Qed.
Lemma above_lt i : i < length aboveL -> nth i aboveL 0 < n.
Proof. intros H. assert (In (nth i aboveL 0) aboveL) as I by (apply nth_In, H). apply filter_In in I. destruct I as [I _]. apply in_seq in I. lia. Qed.
Lemma trow_len r : r <= kb + ka -> length (nth r trows []) = S d.
Proof.
  intros H. destruct r as [|r]; [apply header_len|]. cbn [nth trows]. rewrite kb_len, ka_len, <- app_length in H. rewrite (nth_map' _ _ _ [] 0) by lia. apply cols_len.
  assert (In (nth r (belowL ++ aboveL) 0) (belowL ++ aboveL)) as I by (apply nth_In; lia). apply in_app_or in I. destruct I as [I|I]; apply filter_In in I; destruct I as [I _]; apply in_seq in I; lia.
Qed.
Lemma table_rows buf unknown r : length buf = 1 + n * S d -> kb + ka < n ->
  (forall r j, r <= kb + ka -> j <= d -> nth (r * S d + j) buf 0%R = nth j (nth r trows []) 0%R) -> r <= kb + ka ->
  nth r (table_view d n unknown buf) [] = nth r trows [].
Proof.
  intros L H V Lr. rewrite table_row by (try exact L; lia). rewrite <- (list_by_nth (nth r trows []) (S d)) by (apply trow_len, Lr).
  apply map_ext_in. intros j I. apply in_seq in I. apply V; lia.
Qed.

Lemma read_ok buf unknown : kb + ka < n -> length buf = 1 + n * S d ->
  (forall r j, r <= kb + ka -> j <= d -> nth (r * S d + j) buf 0%R = nth j (nth r trows []) 0%R) ->
  let t := table_view d n unknown buf in let e := read_table d t in
  nsb e = length belowL /\ nsa e = length aboveL /\
  firstn (nsb e) (rows e) = map (fun v => nth v points []) belowL /\
  firstn (nsa e) (skipn (nsb e) (rows e)) = map (fun v => nth v points []) aboveL /\
  firstn (nsb e) (tl t) = map (fun v => nth v points [] ++ [INR v]) belowL /\
  firstn (nsa e) (skipn (nsb e) (tl t)) = map (fun v => nth v points [] ++ [INR v]) aboveL.
Proof.
  intros H L V t e.
  assert (forall r, r <= kb + ka -> nth r t [] = nth r trows []) as TR by (intros r Hr; apply table_rows; assumption).
  assert (nsb e = length belowL) as E1.
  { unfold e, read_table. cbn [nsb]. rewrite TR by lia. cbn [nth trows header]. rewrite INR_IZR_INZ, Ztrunc_IZR, Nat2Z.id. apply kb_len. }
  assert (nsa e = length aboveL) as E2.
  { unfold e, read_table. cbn [nsa]. rewrite TR by lia. cbn [nth trows header]. rewrite INR_IZR_INZ, Ztrunc_IZR, Nat2Z.id. apply ka_len. }
  assert (forall v, v < n -> cols v = nth v points [] ++ [INR v] /\ firstn d (cols v) = nth v points []) as CV.
  { intros v Hv. unfold cols. rewrite Forall_forall in Pd. pose proof (Pd _ (nth_In points [] Hv)) as PL. rewrite firstn_all2 by lia. split; [reflexivity|].
    rewrite firstn_app, PL, Nat.sub_diag, firstn_all2 by lia. cbn. apply app_nil_r. }
  assert (length (tl t) = n) as TL by (pose proof (table_len buf unknown) as X; fold t in X; destruct t; cbn in *; lia).
  assert (forall i, i < kb + ka -> nth i (tl t) [] = cols (nth i (belowL ++ aboveL) 0)) as TT.
  { intros i Hi. replace (nth i (tl t) []) with (nth (S i) t []) by (destruct t; [destruct i|]; reflexivity).
    rewrite TR by lia. cbn [nth trows]. apply nth_map'. rewrite app_length, <- kb_len, <- ka_len. exact Hi. }
  assert (forall {A} (f : list R -> A) da, da = f [] ->
    firstn (nsb e) (map f (tl t)) = map (fun v => f (cols v)) belowL /\
    firstn (nsa e) (skipn (nsb e) (map f (tl t))) = map (fun v => f (cols v)) aboveL) as G.
  { intros A f da Hd. pose proof kb_len as K1. pose proof ka_len as K2. rewrite E1, E2. split; [apply slice_eq0 with da|apply slice_eq with da].
    - apply map_length.
    - rewrite map_length, TL. lia.
    - intros i Hi. rewrite map_length in Hi. rewrite (nth_map' f _ _ da []) by lia. rewrite TT by lia. rewrite app_nth1 by lia. rewrite (nth_map' _ _ i da 0) by lia. reflexivity.
    - rewrite map_length; reflexivity.
    - rewrite map_length, TL. lia.
    - intros i Hi. rewrite map_length in Hi. rewrite (nth_map' f _ _ da []) by lia. rewrite TT by lia. rewrite app_nth2 by lia. rewrite (nth_map' _ _ i da 0) by lia. f_equal. f_equal. f_equal. lia. }
  split; [exact E1|]. split; [exact E2|].
  destruct (G _ (firstn d) [] ltac:(rewrite firstn_nil; reflexivity)) as [G1 G2]. destruct (G _ (fun x => x) [] eq_refl) as [G3 G4]. rewrite map_id in G3, G4.
  change (map (firstn d) (tl t)) with (rows e) in G1, G2.
  rewrite G1, G2, G3, G4. repeat split; apply map_ext_in; intros v I; apply CV; apply filter_In in I; destruct I as [I _]; apply in_seq in I; lia.
Qed.
End T.
