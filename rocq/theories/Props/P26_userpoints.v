(** C90: generate_mesh on several processes with the user's points. *)
From Coq Require Import Reals List Arith Bool ZArith Lia Lra Permutation.
From Flocq Require Import Core.
From Verif Require Import Model.Base Model.MPI Model.Process Model.SDF Model.Mesh Model.Forces Model.InitGrid Model.Interp Model.Blocker
  Model.Simplex Model.Migration Model.WhereTo Model.Generator Model.Parallel Spec.Lockstep Spec.MeshTopo Spec.Bars Spec.Linear Spec.Export Proofs.Choreo Proofs.ListAux Proofs.ProcessProofs
  Proofs.MeshAux Proofs.WhereToProofs Proofs.ExportTable Proofs.ExportMain Proofs.BlockerProofs Proofs.BlockerFloat Proofs.ParallelProofs Proofs.GenLoop Proofs.TriangProofs Props.P12_ghosts Props.P13_blocks Props.P18_generate Props.P25_parallel.
Import ListNotations.
Local Open Scope nat_scope.

(** what the user gave: enough points of the right dimension, none at the far end of the number range, and no point on the border
    between two blocks; CGAL returns vertices that are points of the block *)
Definition fair_points (Q : par_backend) (size axis : nat) (d : dom_arg) (s : size_arg) (o : gen_opts) (p : nat -> list pt) (points : list pt) : Prop :=
  o_points o = Some points /\ Forall (fun x => length x = the_dim d s) points /\ 1 < length points / size /\
  (forall x k, In x points -> k < the_dim d s -> (-999999998 < nth k x 0)%R) /\
  (forall r r' x, r < size -> r' < size -> In x (p r) -> In x (p r') -> r = r') /\
  (forall r, r < size -> let '(v, t) := q_tri Q r 0 (p r) in v <> [] /\ (forall x, In x v -> In x (p r)) /\ mesh_ok (the_dim d s) v t).

Section U.
Variables (Q : par_backend) (size axis : nat) (d : dom_arg) (s : size_arg) (o : gen_opts).
Variables (fd : pt -> R) (h0 : R) (fh : nat -> list R -> R) (p : nat -> list pt) (ext : list (list R)) (points : list pt).
Hypothesis S2 : 2 <= size.
Hypothesis DD : the_dim d s = 2 \/ the_dim d s = 3.
Hypothesis AX : axis = 0 \/ axis = 1.
Hypothesis UP : o_points o = Some points.
Hypothesis EXACT : q_rnd Q = fun x => x.
Hypothesis PD : Forall (fun x => length x = the_dim d s) points.
Hypothesis ENOUGH : 1 < length points / size.
Hypothesis FAR : forall x k, In x points -> k < the_dim d s -> (-999999998 < nth k x 0)%R.
Hypothesis ST : ranks_start Q size axis d s o fd h0 fh p ext.
Hypothesis ALONE : forall r r' x, r < size -> r' < size -> In x (p r) -> In x (p r') -> r = r'.
Hypothesis TRI : forall r, r < size -> let '(v, t) := q_tri Q r 0 (p r) in v <> [] /\ (forall x, In x v -> In x (p r)) /\ mesh_ok (the_dim d s) v t.
Notation dim := (the_dim d s).
Notation P := (on_rank d s o fd h0 fh).
Let c := if axis =? 0 then 1 else 0.
Lemma c_dim : c < dim.
Proof. unfold c. destruct DD as [-> | ->]; destruct AX as [-> | ->]; cbn; lia. Qed.
Lemma block_facts : length ext = size /\ (forall r, r < size -> tight_box dim (p r) (nth r ext [])) /\ (forall r x, r < size -> In x (p r) -> In x points) /\
  (forall r r' x y, r < size -> r' < size -> r < r' -> In x (p r) -> In y (p r') -> (nth c x 0 < nth c y 0)%R).
Proof.
  unfold ranks_start in ST. rewrite UP, EXACT in ST. destruct ST as (blocks & EB & LB & H).
  destruct (C62_blocks dim points size axis DD AX ltac:(lia) ENOUGH PD) as (bl & ex & lo & w & ks & EB' & W & COV & LK & SK & IK & BK & LE & TB).
  rewrite EB in EB'. injection EB' as <- <-. destruct (C62_cover dim points size axis blocks ext DD AX ltac:(lia) ENOUGH PD EB) as (LB' & _ & ORD).
  assert (length blocks = size) as LS by lia. split; [lia|]. split; [intros r L; destruct (H r L) as (_ & -> & _); apply TB; lia|].
  fold c in BK, ORD. split.
  - intros r x L I. destruct (H r L) as (_ & E & _). rewrite E in I. apply (BK r ltac:(lia)) in I. apply I.
  - intros r r' x y L L' LT Ix Iy. destruct (H r L) as (_ & E & _). destruct (H r' L') as (_ & E' & _).
    assert (nth c x 0 <= nth c y 0)%R as LE'. { rewrite E in Ix. rewrite E' in Iy. exact (proj1 (ORD r r' ltac:(lia)) x y Ix Iy). }
    destruct (Rle_lt_or_eq_dec _ _ LE') as [G|G]; [exact G|]. exfalso.
    assert (In y (p r)) as Iy'. { rewrite E. apply (BK r ltac:(lia)). rewrite E in Ix. rewrite E' in Iy. apply (BK r ltac:(lia)) in Ix. apply (BK r' ltac:(lia)) in Iy. split; [apply Iy|]. rewrite <- G. apply Ix. }
    pose proof (ALONE r r' y L L' Iy' Iy). lia.
Qed.
Lemma nth_skip {A} n k (l : list A) a : nth k (skipn n l) a = nth (n + k) l a.
Proof. revert l. induction n as [|n IH]; intros [|x l]; cbn [skipn Nat.add nth]; try reflexivity; [destruct k; reflexivity|apply IH]. Qed.
Lemma nth_first {A} n k (l : list A) a : k < n -> nth k (firstn n l) a = nth k l a.
Proof. revert k l. induction n as [|n IH]; intros [|k] [|x l] L; cbn [firstn nth]; try reflexivity; try lia. apply IH. lia. Qed.
Lemma extents_fine : extents_ok dim size ext.
Proof.
  destruct block_facts as (LE & TB & _ & _). split; [exact LE|]. apply Forall_forall. intros e He. destruct (In_nth _ _ [] He) as (r & Lr & <-). rewrite LE in Lr.
  destruct (TB r Lr) as [Len K]. split; [exact Len|]. apply (proj2 (Forall2_nth _ _ _)). rewrite firstn_length, skipn_length. split; [lia|]. intros k Lk.
  destruct (K k ltac:(lia)) as (A & (x & Ix & E) & _). rewrite nth_skip, nth_first by lia. destruct (A x Ix). lra.
Qed.
(** no cell of a block touches the box of another block *)
Lemma no_meet r r' cell : r < size -> r' < size -> r <> r' -> (forall x, In x cell -> In x (p r)) ->
  ~ span_meets dim cell (firstn dim (nth r' ext []), skipn dim (nth r' ext [])).
Proof.
  intros L L' N SUB (q & [W1 W2] & SP). destruct block_facts as (LE & TB & _ & ORD). destruct (TB r' L') as [Len K]. destruct (K c c_dim) as (_ & (x1 & I1 & E1) & (x2 & I2 & E2)).
  destruct (SP c c_dim) as ((y1 & J1 & F1) & (y2 & J2 & F2)). cbn [fst snd] in W1, W2. pose proof c_dim as CD.
  apply (proj1 (Forall2_nth _ _ _)) in W1. destruct W1 as [LW1 W1]. apply (proj1 (Forall2_nth _ _ _)) in W2. destruct W2 as [LW2 W2].
  rewrite firstn_length in LW1. rewrite skipn_length in LW2. specialize (W1 c). rewrite firstn_length in W1. specialize (W1 ltac:(lia)). specialize (W2 c ltac:(lia)).
  rewrite nth_first in W1 by exact CD. rewrite nth_skip in W2.
  destruct (Nat.lt_total r r') as [LT|[?|LT]]; [|lia|].
  - pose proof (ORD r r' y2 x1 L L' LT (SUB _ J2) I1). lra.
  - pose proof (ORD r' r x2 y1 L' L LT I2 (SUB _ J1)). lra.
Qed.
Lemma no_meet_far r cell : r < size -> (forall x, In x cell -> In x (p r)) -> ~ span_meets dim cell (repeat (-999999999)%R dim, repeat (-999999998)%R dim).
Proof.
  intros L SUB (q & [_ W2] & SP). destruct block_facts as (_ & _ & INP & _). pose proof c_dim as CD. destruct (SP c CD) as ((y1 & J1 & F1) & _). cbn [snd] in W2.
  apply (proj1 (Forall2_nth _ _ _)) in W2. destruct W2 as [LW2 W2]. rewrite repeat_length in LW2. specialize (W2 c ltac:(lia)). rewrite (nth_indep (repeat _ _) 0%R (-999999998)%R) in W2 by (rewrite repeat_length; exact CD). rewrite nth_repeat in W2.
  pose proof (FAR y1 c (INP r y1 L (SUB _ J1)) CD). lra.
Qed.
Definition low_box r := if r =? 0 then (repeat (-999999999)%R dim, repeat (-999999998)%R dim) else (firstn dim (nth (r - 1) ext []), skipn dim (nth (r - 1) ext [])).
Definition upp_box r := if r + 1 =? size then (repeat (-999999999)%R dim, repeat (-999999998)%R dim) else (firstn dim (nth (r + 1) ext []), skipn dim (nth (r + 1) ext [])).
Lemma idle : all_idle Q size P ext 0 p.
Proof.
  intros r L. specialize (TRI r L). unfold table. destruct (q_tri Q r 0 (p r)) as [v t] eqn:ET. destruct TRI as (NE & SUB & OK). cbn [g_dim on_rank].
  assert (neighbours dim size r ext (low_box r) (upp_box r)) as NB.
  { unfold neighbours, low_box, upp_box. destruct (Nat.eqb_spec r 0); destruct (Nat.eqb_spec (r + 1) size); repeat split; intros; try reflexivity; lia. }
  assert (forall w e, ~ first_hit dim (q_meets Q) (low_box r) (upp_box r) v t w e) as NH.
  { intros w e (Le & Iw & (_ & SM) & _). destruct OK as [OP OT]. rewrite Forall_forall in OT. destruct (OT (nth e t [])) as [_ OC]; [apply nth_In, Le|]. rewrite Forall_forall in OC.
    assert (forall x, In x (map (fun i => nth i v []) (nth e t [])) -> In x (p r)) as SUB'.
    { intros x I. apply in_map_iff in I. destruct I as (i & <- & Ii). apply SUB, nth_In, OC, Ii. }
    destruct SM as [SM|SM]; revert SM.
    - unfold low_box. destruct (Nat.eqb_spec r 0); [apply (no_meet_far r _ L SUB')|apply (no_meet r (r - 1) _ L ltac:(lia) ltac:(lia) SUB')].
    - unfold upp_box. destruct (Nat.eqb_spec (r + 1) size); [apply (no_meet_far r _ L SUB')|apply (no_meet r (r + 1) _ L ltac:(lia) ltac:(lia) SUB')]. }
  destruct (C59_table dim (q_meets Q) (q_unknown Q) ext v t r size (low_box r) (upp_box r) ltac:(lia) S2 L extents_fine NB OK) as (tb & below & above & ET' & _ & _ & _ & IB & IA & H0 & _).
  { exists 0. split; [destruct v; [congruence|cbn; lia]|]. intros e. apply NH. }
  assert (below = []) as ->. { destruct below as [|b below]; [reflexivity|]. destruct (proj1 (IB b) (or_introl eq_refl)) as (_ & e & FH & _). destruct (NH _ _ FH). }
  assert (above = []) as ->. { destruct above as [|b above]; [reflexivity|]. destruct (proj1 (IA b) (or_introl eq_refl)) as (_ & e & FH & _). destruct (NH _ _ FH). }
  rewrite ET'. cbn [option_map]. eexists. split; [reflexivity|]. unfold read_table. cbn [nsb nsa]. rewrite H0. cbn [length INR nth]. rewrite (Ztrunc_IZR 0). split; reflexivity.
Qed.
End U.

(** With the user's points (exact arithmetic, split along axis 0 or 1) no rank has anything to export in the first iteration:
    nothing is received, and every rank deletes one vertex of its own as if it were a received one. *)
Theorem C90_first_iteration_exchanges_nothing : forall Q size axis d s o fd h0 fh p ext points, 2 <= size -> the_dim d s = 2 \/ the_dim d s = 3 -> axis = 0 \/ axis = 1 ->
  q_rnd Q = (fun x => x) -> ranks_start Q size axis d s o fd h0 fh p ext -> fair_points Q size axis d s o p points ->
  let P := on_rank d s o fd h0 fh in
  all_idle Q size P ext 0 p /\
  forall r, r < size -> incoming Q size P ext 0 p r = [] /\
    Lockstep.moved Q size P ext 0 p r = removelast (next_points (P r) (fst (local_mesh Q size P ext 0 p r)) (snd (local_mesh Q size P ext 0 p r))).
Proof.
  intros Q size axis d s o fd h0 fh p ext points S2 DD AX EX ST (UP & PD & EN & FAR & AL & TRI) P.
  pose proof (idle Q size axis d s o fd h0 fh p ext points S2 DD AX UP EX PD EN FAR ST AL TRI) as ID. fold P in ID. split; [exact ID|].
  assert (forall r, r < size -> nsb (exported Q size P ext 0 p r) = 0 /\ nsa (exported Q size P ext 0 p r) = 0) as Z.
  { intros r L. unfold exported. destruct (ID r L) as (e & -> & E). exact E. }
  intros r L. assert (incoming Q size P ext 0 p r = []) as E0.
  { unfold incoming, to_below, to_above. destruct (Nat.ltb_spec (r + 1) size) as [L1|L1]; destruct (Nat.eqb_spec r 0) as [E1|E1]; try (destruct (Z (r + 1) ltac:(lia)) as [-> _]); try (destruct (Z (r - 1) ltac:(lia)) as [_ ->]); reflexivity. }
  split; [exact E0|]. unfold Lockstep.moved, lost. destruct (Z r L) as [-> ->]. cbn [Nat.eqb andb]. unfold delete_ghosts. cbn [Nat.eqb]. rewrite removelast_firstn_len, Nat.sub_1_r. reflexivity.
Qed.
Print Assumptions C90_first_iteration_exchanges_nothing.

Lemma nth_flat (m : nat -> list pt * list row) r v : forall size, r < size -> v < length (fst (m r)) ->
  nth (v + number_before m r) (flat_map (fun i => fst (m i)) (seq 0 size)) [] = nth v (fst (m r)) [].
Proof.
  intros size L LV. replace size with (r + S (size - r - 1)) by lia. rewrite seq_app, flat_map_app. cbn [Nat.add].
  assert (length (flat_map (fun i => fst (m i)) (seq 0 r)) = number_before m r) as LN.
  { unfold number_before. generalize (seq 0 r). intros l. induction l as [|a l IH]; [reflexivity|]. cbn [flat_map map list_sum fold_right]. rewrite app_length, IH. reflexivity. }
  rewrite app_nth2 by lia. rewrite LN. replace (v + number_before m r - number_before m r) with v by lia. cbn [seq flat_map]. apply app_nth1, LV.
Qed.
(** So with max_iter = 1 the mesh rank 0 finishes (merging, clean-up, smoothing) has no cell that joins two blocks. *)
Theorem C90_one_iteration_leaves_gaps : forall Q size axis d s o fuel fd h0 fh p ext points m, 2 <= size -> axis = 0 \/ axis = 1 -> accepted d s o fd h0 1 ->
  q_rnd Q = (fun x => x) -> ranks_start Q size axis d s o fd h0 fh p ext -> fair_points Q size axis d s o p points -> 1 <= fuel ->
  (forall r, r < size -> good_backend (q_serial Q r) /\ forall x, In x (fst (q_ins Q r 0 (p r) [])) -> In x (p r)) ->
  let P := on_rank d s o fd h0 fh in
  (forall r, r < size -> let l := local_mesh Q size P ext 0 p r in run_fix (q_serial Q r) (fst l) (snd l) = Ok (m r)) ->
  let mesh := Lockstep.joined size m in
  (forall cell, In cell (snd mesh) -> exists r, r < size /\ forall v, In v cell -> In (nth v (fst mesh) []) (p r)) /\
  forall n st, prun (@anything) n (pstart (parallel_mesh Q size axis d s o fuel)) st ->
    n <= 2 * ((size + 9) * (size - 1)) /\ (~ all_ended st -> exists st', pstep false st st') /\
    (all_ended st -> ended st 0 (Some (match finish (q_serial Q 0) (P 0) (fst mesh) (snd mesh) with Ok x => Ok (Some x) | Err e => Err e end))).
Proof.
  intros Q size axis d s o fuel fd h0 fh p ext points m S2 AX AC EX ST FP FU GB P HM mesh. pose proof AC as (_ & _ & _ & DD & _).
  destruct (C90_first_iteration_exchanges_nothing Q size axis d s o fd h0 fh p ext points S2 DD AX EX ST FP) as [ID IN]. fold P in ID, IN. split.
  - intros cell I. unfold mesh, Lockstep.joined in I. cbn [snd] in I. apply in_flat_map in I. destruct I as (r & Ir & I). apply in_seq in Ir. apply in_map_iff in I. destruct I as (c0 & <- & I).
    exists r. split; [lia|]. intros v Iv. apply in_map_iff in Iv. destruct Iv as (w & <- & Iw). destruct (GB r ltac:(lia)) as [G SUB]. specialize (HM r ltac:(lia)). destruct (m r) as [p' t'] eqn:Em.
    destruct (run_fix_tidy _ G _ _ _ _ HM) as (LV & _). cbn [snd] in I. specialize (LV c0 w I Iw). unfold mesh, Lockstep.joined. cbn [fst].
    rewrite (nth_flat m r w size ltac:(lia)) by (rewrite Em; exact LV). rewrite Em. cbn [fst]. apply SUB. destruct (IN r ltac:(lia)) as [E0 _].
    assert (fst (local_mesh Q size P ext 0 p r) = fst (q_ins Q r 0 (p r) [])) as EL.
    { unfold local_mesh. rewrite E0. unfold with_ghosts. destruct (q_ins Q r 0 (p r) []) as [a b]. reflexivity. }
    rewrite <- EL. apply (run_fix_from _ G _ _ _ _ HM). apply nth_In, LV.
  - intros n st RN. destruct (C89_run Q size axis d s o fuel 1 fd h0 fh p ext m S2 AC ST FU) with (n := n) (st := st) as (A & B & C); try exact RN.
    + intros j Lj. right. assert (j = 0) as -> by lia. exact ID.
    + intros j Lj. lia.
    + exact HM.
    + split; [nia|]. split; [exact B|]. intros E. apply (C E).
Qed.
Print Assumptions C90_one_iteration_leaves_gaps.

(** ---- a concrete case: six points, two processes ---- *)
Local Open Scope R_scope.
Definition six : list (list R) := [[0;0];[1;0];[1/2;1/4];[0;1];[1;1];[1/2;3/4]].
Definition half (r : nat) : list (list R) := match r with O => [[0;0];[1;0];[1/2;1/4]] | _ => [[0;1];[1;1];[1/2;3/4]] end.
Definition Q3 : par_backend :=
  mkPar (fun _ _ p => (p, [[0;1;2]%nat])) (fun _ _ p recv => (p ++ recv, [[0;1;2]%nat])) (fun _ _ => true) (fun _ => 0) (fun x => x)
    (fun _ => mkBackend (fun _ p => (p, [])) (nodup key_dec) (nodup row_dec) (fun _ x => map Rdefinitions.up x) ve_pairs (fun p _ => p) (fun n => repeat 0 n)).
Definition dom3 : dom_arg := DFunction (fun _ => -1) [0;1;0;1].
Definition opt3 : gen_opts := mkOpts 1 false [] (Some six) 0 (1/10) None false false (Some 1).
Example C90_case : exists ext, ranks_start Q3 2 0 dom3 siz2 opt3 (fun _ => -1) 1 (sampled_size 2 0 dom3 siz2 1) half ext /\
  fair_points Q3 2 0 dom3 siz2 opt3 half six /\ accepted dom3 siz2 opt3 (fun _ => -1) 1 1 /\
  (forall r, (r < 2)%nat -> good_backend (q_serial Q3 r) /\ forall x, In x (fst (q_ins Q3 r 0 (half r) [])) -> In x (half r)) /\
  all_idle Q3 2 (on_rank dom3 siz2 opt3 (fun _ => -1) 1 (sampled_size 2 0 dom3 siz2 1)) ext 0 half.
Proof.
  pose proof eps_pos as EP. assert (eps < 1/10) as ES by (rewrite eps_val; lra).
  assert (exists ext, blocker (fun x => x) 2 six 2 0 = Ok ([half 0; half 1], ext)) as [ext EB].
  { unfold six. eexists. rewrite (blocker_slabs 2 _ 2 0); [|left; reflexivity|left; reflexivity|lia|cbn; lia|repeat (apply Forall_cons; [reflexivity|]); apply Forall_nil].
    cbn [split_coord seq map]. unfold slab, in_slab, slab_lo. cbn [column map nth].
    assert (min_list [0;0;1/4;1;1;3/4] = 0) as -> by (cbn; unfold Rmin; repeat destruct Rle_dec; lra). assert (max_list [0;0;1/4;1;1;3/4] = 1) as -> by (cbn; unfold Rmax; repeat destruct Rle_dec; lra). cbn [filter INR nth].
    repeat match goal with |- context [Rleb ?a ?b] => first [rewrite (proj2 (Rleb_true a b)) by lra | rewrite (proj2 (Rleb_false a b)) by lra] end. cbn. reflexivity. }
  exists ext. assert (ranks_start Q3 2 0 dom3 siz2 opt3 (fun _ => -1) 1 (sampled_size 2 0 dom3 siz2 1) half ext) as ST.
  { unfold ranks_start. cbn [o_points opt3 q_rnd Q3]. eexists. split; [exact EB|]. split; [cbn; lia|]. intros r L. split; [reflexivity|]. destruct r as [|[|r]]; [| |lia]; (split; [reflexivity|discriminate]). }
  assert (fair_points Q3 2 0 dom3 siz2 opt3 half six) as FP.
  { split; [reflexivity|]. split; [unfold six; repeat (apply Forall_cons; [reflexivity|]); apply Forall_nil|]. split; [cbn; lia|]. split; [|split].
    - intros x k I _. unfold six in I. cbn [In] in I. repeat (destruct I as [<-|I]; [destruct k as [|[|[|k]]]; cbn; lra|]). destruct I.
    - intros r r' x L L' I I'. destruct r as [|[|r]]; [| |lia]; (destruct r' as [|[|r']]; [| |lia]); try reflexivity; exfalso; cbn [half In] in I, I';
        repeat (destruct I as [<-|I]; [repeat (destruct I' as [I'|I']; [injection I'; intros; lra|]); destruct I'|]); destruct I.
    - intros r L. cbn [q_tri Q3]. split; [destruct r as [|[|r]]; discriminate|]. split; [auto|]. split; [destruct r as [|[|r]]; cbn [half]; repeat (apply Forall_cons; [reflexivity|]); apply Forall_nil|].
      apply Forall_cons; [|apply Forall_nil]. split; [reflexivity|]. destruct r as [|[|r]]; cbn [half length]; repeat (apply Forall_cons; [lia|]); apply Forall_nil. }
  split; [exact ST|]. split; [exact FP|]. split; [split; [reflexivity|]; split; [reflexivity|]; split; [lra|]; split; [left; reflexivity|]; split; [cbn; lra|lia]|]. split.
  - intros r L. split; [split; [apply nodup_uniq_ok|apply nodup_uniq_ok]|]. cbn [q_ins Q3 fst]. intros x. rewrite app_nil_r. auto.
  - refine (proj1 (C90_first_iteration_exchanges_nothing Q3 2 0 dom3 siz2 opt3 (fun _ => -1) 1 _ half ext six _ _ _ eq_refl ST FP)); [lia|left; reflexivity|left; reflexivity].
Qed.
