(** C93: generate_mesh on several processes when, in the last iteration, a rank with points to export has a neighbour with none for it. *)
From Coq Require Import Reals List Arith Bool ZArith Lia Lra FunctionalExtensionality.
From Flocq Require Import Core.
From Verif Require Import Model.Base Model.MPI Model.Process Model.SDF Model.Mesh Model.Forces Model.InitGrid Model.Interp Model.Blocker
  Model.Simplex Model.Migration Model.WhereTo Model.Generator Model.Parallel Spec.Lockstep Proofs.Choreo Proofs.ListAux Proofs.ProcessProofs
  Proofs.MeshAux Proofs.ParallelProofs Proofs.TriangProofs Proofs.StarveProofs Proofs.OneSided Props.P18_generate Props.P25_parallel Props.P27_failing.
Import ListNotations.
Local Open Scope nat_scope.

Section S.
Variables (Q : par_backend) (size axis : nat) (d : dom_arg) (s : size_arg) (o : gen_opts) (fuel K : nat) (fd : pt -> R) (h0 : R).
Hypothesis S2 : 2 <= size.
Hypothesis AC : accepted d s o fd h0 K.
Variables (fh : nat -> list R -> R) (p : nat -> list pt) (ext : list (list R)).
Hypothesis ST : ranks_start Q size axis d s o fd h0 fh p ext.
Hypothesis LF : K <= fuel.
Notation P := (on_rank d s o fd h0 fh).
Lemma reach_begin : reach (parallel_mesh Q size axis d s o fuel) (at_iter size Q P ext fuel p 0).
Proof.
  destruct (plays_begin Q size axis d s o S2 fd h0 fh p ext ST) as (ch1 & I1 & _ & P1).
  pose proof (reach_play size ch1 _ _ (cont Q size d s o fuel fd h0) (parallel_mesh Q size axis d s o fuel) P1 I1 (whole Q size axis d s o fuel K fd h0 AC)) as H.
  refine (eq_ind _ (fun z => reach _ z) H _ _).
  apply functional_extensionality. intros r. unfold at_iter, parallel_mesh. destruct (Nat.ltb_spec r size) as [L|L]; [|reflexivity].
  unfold cont. assert (p r <> []) as NEP. { revert ST. unfold ranks_start. destruct (o_points o); [intros (b & _ & _ & H')|intros (b & _ & H' & _)]; apply (H' r L). }
  destruct AC as (_ & _ & _ & _ & EM & _). assert (Rltb (o_max_iter o) 0 = false) as -> by (apply Rltb_false; rewrite EM; apply pos_INR). rewrite Nat.sub_0_r. cbn [after].
  destruct (p r); [congruence|reflexivity].
Qed.
Notation points := (fun j => after Q size P ext j p).
Hypothesis HE : forall j, S j < K -> all_export Q size P ext j (points j) \/ all_idle Q size P ext j (points j).
Hypothesis HG : forall j, S j < K -> rank0_goes_on Q size P ext j (points j).
Variables (a b : nat) (e : exports).
Hypothesis La : a < size.
Hypothesis Lb : b < size.
Hypothesis AD : a = b + 1 \/ b = a + 1.
Notation q := (points (K - 1)).
Hypothesis EB : table Q size (P b) ext b (K - 1) (q b) = Some e.
Hypothesis AB : active_here e.
Hypothesis NA : forall e', table Q size (P a) ext a (K - 1) (q a) = Some e' -> no_rows a b e'.
Notation last := (fun r => if r <? size then last_it size Q P ext (K - 1) q r else Done None).
Lemma reach_end : reach (parallel_mesh Q size axis d s o fuel) last.
Proof.
  assert (0 < K) as K0 by apply AC. assert (forall r, g_max_iter (P r) = INR K) as SI by (intros r; apply AC).
  apply reach_trans with (1 := reach_begin). pose proof (reach_last size S2 Q P ext K fuel SI p K0 LF HE HG) as H.
  refine (eq_ind _ (fun z => reach _ z) H _ _).
  apply functional_extensionality. intros r. unfold at_iter. destruct (r <? size); [|reflexivity]. replace (fuel - (K - 1)) with (S (fuel - K)) by lia.
  apply (last_eq size Q P ext (K - 1) q K _ r SI). lia.
Qed.
Lemma waiting_hangs n st x : prun (@anything) n (pstart (parallel_mesh Q size axis d s o fuel)) st -> ~ ended st b x.
Proof.
  intros RN. destruct reach_end as [k R]. refine (starved_later _ _ _ _ _ b R _ n st x RN). refine (starved_tag _ _ _ b a 11 _ _ _ _); [lia|..]; cbn [pstart pp pc]; [| |intros m []].
  - rewrite (proj2 (Nat.ltb_lt _ _) Lb). apply (last_hears size Q P ext (K - 1) q a b e); [exact La|exact AD|exact EB|exact AB].
  - rewrite (proj2 (Nat.ltb_lt _ _) La). apply (last_silent size Q P ext (K - 1) q a b); [lia|exact NA].
Qed.
Lemma no_mesh n st m : prun (@anything) n (pstart (parallel_mesh Q size axis d s o fuel)) st -> ~ ended st 0 (Some (Ok (Some m))).
Proof.
  intros RN EN. destruct reach_end as [k R].
  (* rank 0 waits for w *)
  set (w := if b =? 0 then 1 else b). set (g := fun r => if r =? 0 then wait_for w else fun x : out => Done x).
  apply (followed_run _ _ _ _ g) in R. apply (followed_run _ _ _ _ g) in RN.
  assert (ended (followed_by st g) 0 (Some (Ok (Some m)))) as EN'. { unfold ended, followed_by in *. cbn [pp]. rewrite EN. reflexivity. }
  assert (forall f : nat -> proc pmsg out, followed_by (pstart f) g = pstart (fun r => pbind (f r) (g r))) as FS by reflexivity. rewrite !FS in R. rewrite FS in RN.
  revert EN'. refine (starved_later _ _ _ _ _ 0 R _ n _ _ RN). unfold w in *.
  assert (forall (x : proc pmsg out), pbind x (fun y => Done y) = x) as BD. { induction x as [y|dd u y x IH|dd u y IH]; cbn [pbind]; [reflexivity|f_equal; exact IH|f_equal; apply functional_extensionality; exact IH]. }
  assert (forall r, r <> 0 -> r < size -> pbind (last r) (g r) = last_it size Q P ext (K - 1) q r) as G1.
  { intros r N L. unfold g. apply Nat.eqb_neq in N. rewrite N, BD. rewrite (proj2 (Nat.ltb_lt _ _) L). reflexivity. }
  assert (pbind (last 0) (g 0) = pbind (last_it size Q P ext (K - 1) q 0) (wait_for (if b =? 0 then 1 else b))) as G0.
  { unfold g. cbn [Nat.eqb]. rewrite (proj2 (Nat.ltb_lt 0 size)) by lia. reflexivity. }
  destruct (Nat.eqb_spec b 0) as [B0|B0].
  - assert (a = 1) as A1 by lia. pose proof EB as EB'. rewrite B0 in EB'. pose proof NA as NA'. rewrite A1, B0 in NA'. refine (starved_once _ _ _ 0 1 _ _); [lia|]. exists 5, 4. cbn [pstart pp pc length]. rewrite G0, (G1 1) by lia.
    split; [apply (root_needs5 size Q P ext (K - 1) q e); [lia|exact EB'|exact AB]|]. split; [|lia].
    pose proof (last_sends size Q P ext (K - 1) q 1 0 ltac:(lia)) as H. apply H. exact NA'.
  - assert (limited 0 a (last_it size Q P ext (K - 1) q b) 1 1) as LI.
    { unfold last_it. rewrite EB. apply limited_part; [apply ex_sends1|apply ex_needs; [exact La|exact AD|exact AB]]. }
    pose proof (root_needs4 size Q P ext (K - 1) q b ltac:(lia)) as RT. pose proof (last_sends size Q P ext (K - 1) q a b ltac:(lia) NA) as SA. replace (b =? 0) with false in SA by (symmetry; apply Nat.eqb_neq; exact B0). cbn [andb] in SA.
    destruct (Nat.eq_dec a 0) as [A0|A0].
    + assert (b = 1) as B1 by lia. refine (starved_mutual _ 0 b _ _); [lia|]. exists 4, 1, 1, 0. cbn [pstart pp pc length]. rewrite G0, (G1 b) by lia. split; [exact RT|]. split; [rewrite A0 in LI; exact LI|].
      split; [lia|]. split; [|lia]. apply (sends_bind b _ _ 0 0); [rewrite A0 in SA; exact SA|]. intros x. apply wait_sends.
    + refine (starved_twice _ _ _ 0 b a _ _ _ _); [lia|lia|lia|]. exists 4, 1, 1, 0. cbn [pstart pp pc length]. rewrite G0, (G1 b), (G1 a) by lia. split; [exact RT|]. split; [exact LI|]. split; [lia|]. split; [exact SA|lia].
Qed.
End S.

(** The ranks run in lock step up to the last iteration; there rank b has points to export and its neighbour a has none for b.
    Then under every schedule and buffering rank b never returns, and rank 0 never returns a mesh. *)
Theorem C93_one_sided_export_hangs : forall Q size axis d s o fuel K fd h0 fh p ext a b, 2 <= size -> accepted d s o fd h0 K ->
  ranks_start Q size axis d s o fd h0 fh p ext -> K <= fuel ->
  let P := on_rank d s o fd h0 fh in let points j := after Q size P ext j p in
  (forall j, S j < K -> all_export Q size P ext j (points j) \/ all_idle Q size P ext j (points j)) ->
  (forall j, S j < K -> rank0_goes_on Q size P ext j (points j)) ->
  a < size -> b < size -> (a = b + 1 \/ b = a + 1) -> has_exports Q size P ext (K - 1) (points (K - 1)) b -> none_for Q size P ext b (K - 1) (points (K - 1)) a ->
  forall n st, prun (@anything) n (pstart (parallel_mesh Q size axis d s o fuel)) st ->
    (forall x, ~ ended st b x) /\ forall m, ~ ended st 0 (Some (Ok (Some m))).
Proof.
  intros Q size axis d s o fuel K fd h0 fh p ext a b S2 AC ST LF P points HE HG La Lb AD (e & EB & AB) NF n st RN.
  assert (forall e', table Q size (P a) ext a (K - 1) (points (K - 1) a) = Some e' -> no_rows a b e') as NA.
  { intros e' E'. unfold no_rows. destruct (NF e' E') as [N1 N2]. destruct (Nat.eqb_spec b (a + 1)) as [E|N]; [apply N1, E|apply N2; lia]. }
  split.
  - intros x. exact (waiting_hangs Q size axis d s o fuel K fd h0 S2 AC fh p ext ST LF HE HG a b e La Lb AD EB AB NA n st x RN).
  - intros m. exact (no_mesh Q size axis d s o fuel K fd h0 S2 AC fh p ext ST LF HE HG a b e La Lb AD EB AB NA n st m RN).
Qed.
Print Assumptions C93_one_sided_export_hangs.

(** ---- a concrete case: the run of C89_case, but rank 1 has no cells left in the second and last iteration ---- *)
Local Open Scope R_scope.
Definition Q3 : par_backend :=
  mkPar (fun r c _ => (own r, if ((r =? 1) && (c =? 1))%nat then [] else [[0;1;2]%nat])) (fun r _ _ recv => (own r ++ recv, [[0;1;2]%nat])) (fun _ b => negb (far_box b)) (fun _ => 0) (fun x => x)
    (fun _ => mkBackend (fun _ p => (p, [])) (nodup key_dec) (nodup row_dec) (fun _ x => map Rdefinitions.up x) ve_pairs (fun p _ => p) (fun n => repeat 0 n)).
Example C93_case : forall n st, prun (@anything) n (pstart (parallel_mesh Q3 2 0 dom2 siz2 opt2 2)) st -> forall x, ~ ended st 0%nat x.
Proof.
  intros n st RN. destruct (C93_one_sided_export_hangs Q3 2 0 dom2 siz2 opt2 2 2 (fun _ => -1) 1 (fun _ _ => 1) own ext2 1 0 ltac:(lia)) with (n := n) (st := st) as [H _]; try exact RN; try lia; try exact H.
  - split; [reflexivity|]. split; [reflexivity|]. split; [lra|]. split; [left; reflexivity|]. split; [cbn; lra|lia].
  - exact starts2.
  - intros j L. assert (j = 0)%nat as -> by lia. left. intros r Lr. destruct (export2 0 own r Lr) as (e & E & H). exists e. split; [|exact H]. rewrite <- E. destruct r as [|[|r]]; [reflexivity|reflexivity|lia].
  - intros j L. assert (j = 0)%nat as -> by lia.
    assert (exists recv, local_mesh Q3 2 P2 ext2 0 (after Q3 2 P2 ext2 0 own) 0 = (own 0 ++ recv, [[0;1;2]%nat])) as (recv & E).
    { unfold local_mesh. generalize (incoming Q3 2 P2 ext2 0 (after Q3 2 P2 ext2 0 own) 0) as rc. intros rc. exists rc. apply (ghosts2 0 [] 0 rc). lia. }
    unfold rank0_goes_on. rewrite E. cbn [fst snd]. split.
    + intros K. apply (f_equal (@length (list R))) in K. unfold compute_forces in K. rewrite map_length, seq_length, app_length in K. discriminate.
    + unfold max_move. change (g_delta_t (P2 0%nat)) with 0. change (g_h0 (P2 0%nat)) with 1. lra.
  - destruct (export2 1 own 0%nat ltac:(lia)) as (e & E & H). exists e. split; [exact E|]. right. apply H. lia.
  - intros e E. split; [lia|]. intros _. revert E. unfold table. cbn [Q3 q_tri Nat.eqb andb]. unfold enqueue, where_to. intros E. injection E as <-. unfold read_table. cbn. rewrite ?Ztrunc_IZR. reflexivity.
Qed.
