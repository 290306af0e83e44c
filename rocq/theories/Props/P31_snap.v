(** C97: which vertices fix_mesh merges, in binary64.  The third result of fix_mesh (without delete_unused) gives the new number of
    every vertex; two vertices are merged when they get one number. *)
From Coq Require Import List ZArith Reals Bool Arith Lia Lra.
From Flocq Require Import Core.
From Verif Require Import Model.Base Model.FastHJ Model.Mesh Model.Blocker Model.Snap Proofs.ListAux Proofs.MeshAux Proofs.FixMeshProofs Proofs.SnapProofs Props.P06_mesh.
Import ListNotations.
Local Open Scope R_scope.

(** merged vertices differ by at most about the snapping width (ptol times the largest extent) in every coordinate *)
Theorem C97_merged_are_close : forall uniqK uniqR ptol p t fix_orientation p' t' jx i j, uniq_ok uniqK -> uniq_ok uniqR ->
  fix_mesh64 uniqK uniqR ptol p t false fix_orientation = Ok (p', t', jx) ->
  let s := snap_width ptol p in 0 < s ->
  (i < length p)%nat -> (j < length p)%nat -> length (nth i p []) = length (nth j p []) ->
  nth i jx O = nth j jx O ->
  forall c, (c < length (nth i p []))%nat -> let x := nth c (nth i p []) 0 in let y := nth c (nth j p []) 0 in
  Rabs (x - y) <= (1 + / 2 ^ 50) * s + / 2 ^ 51 * (Rabs x + Rabs y) + / 2 ^ 1073.
Proof.
  intros uniqK uniqR ptol p t ori p' t' jx i j HK HR H s P I J L E c C x y. unfold fix_mesh64 in H.
  apply (jx_same uniqK uniqR _ p t ori p' t' jx i j HK HR H I J) in E. apply snap_close; [exact P|]. exact (snap_key_coord s _ _ c E C L).
Qed.
Print Assumptions C97_merged_are_close.
(** vertices in the middle half of one cell of the snapping grid, on the same side of zero, are merged *)
Theorem C97_close_are_merged : forall uniqK uniqR ptol p t fix_orientation p' t' jx i j, uniq_ok uniqK -> uniq_ok uniqR ->
  fix_mesh64 uniqK uniqR ptol p t false fix_orientation = Ok (p', t', jx) ->
  let s := snap_width ptol p in 0 < s ->
  (i < length p)%nat -> (j < length p)%nat -> length (nth i p []) = length (nth j p []) ->
  (forall c, (c < length (nth i p []))%nat -> let x := nth c (nth i p []) 0 in let y := nth c (nth j p []) 0 in
    (x < 0 <-> y < 0) /\ exists N, (Z.abs N <= 2 ^ 50)%Z /\ Rabs (x - IZR N * s) <= s / 4 /\ Rabs (y - IZR N * s) <= s / 4) ->
  nth i jx O = nth j jx O.
Proof.
  intros uniqK uniqR ptol p t ori p' t' jx i j HK HR H s P I J L E. unfold fix_mesh64 in H.
  apply (jx_same uniqK uniqR _ p t ori p' t' jx i j HK HR H I J). apply snap_key_ext; [exact L|].
  intros c C. destruct (E c C) as (S & N & B & X & Y). exact (snap_merges s _ _ N P B X Y S).
Qed.
Print Assumptions C97_close_are_merged.
(** but a vertex with a negative coordinate is never merged with one where that coordinate is zero or positive, however close *)
Theorem C97_zero_separates : forall uniqK uniqR ptol p t fix_orientation p' t' jx i j c, uniq_ok uniqK -> uniq_ok uniqR ->
  fix_mesh64 uniqK uniqR ptol p t false fix_orientation = Ok (p', t', jx) -> 0 < snap_width ptol p ->
  (i < length p)%nat -> (j < length p)%nat -> length (nth i p []) = length (nth j p []) -> (c < length (nth i p []))%nat ->
  nth c (nth i p []) 0 < 0 -> 0 <= nth c (nth j p []) 0 -> nth i jx O <> nth j jx O.
Proof.
  intros uniqK uniqR ptol p t ori p' t' jx i j c HK HR H P I J L C X Y E. unfold fix_mesh64 in H.
  apply (jx_same uniqK uniqR _ p t ori p' t' jx i j HK HR H I J) in E. exact (snap_signs _ _ _ P X Y (snap_key_coord _ _ _ c E C L)).
Qed.
Print Assumptions C97_zero_separates.

(** two triangles on either side of x = 0 *)
Definition seam_p (e : R) : list (list R) := [[0;0];[0;1];[1;0];[-e;0];[-e;1];[-1;0]].
Definition seam_t : list (list nat) := [[0;1;2];[3;4;5]]%nat.
Definition ptol0 : R := 2 / 10 ^ 13.
Lemma fmt_pow2 e : (-1074 <= e)%Z -> rnd64 (bpow radix2 e) = bpow radix2 e.
Proof.
  intro E. unfold rnd64. apply round_generic; [typeclasses eauto|]. apply generic_format_bpow. unfold FLT_exp. lia.
Qed.
Lemma seam_width e : 0 < e <= 1 -> snap_width ptol0 (seam_p e) = rnd64 (2 * ptol0) /\ 0 < rnd64 (2 * ptol0).
Proof.
  intro E. split.
  - unfold snap_width, seam_p, column. cbn [nth length seq map].
    replace (max_list [0; 0; 1; - e; - e; -1]) with 1 by (cbn; unfold Rmax; repeat (destruct (Rle_dec _ _); try lra)).
    replace (min_list [0; 0; 1; - e; - e; -1]) with (-1) by (cbn; unfold Rmin; repeat (destruct (Rle_dec _ _); try lra)).
    replace (max_list [0; 1; 0; 0; 1; 0]) with 1 by (cbn; unfold Rmax; repeat (destruct (Rle_dec _ _); try lra)).
    replace (min_list [0; 1; 0; 0; 1; 0]) with 0 by (cbn; unfold Rmin; repeat (destruct (Rle_dec _ _); try lra)).
    replace (rnd64 (1 - -1)) with 2 by (replace (1 - -1) with (bpow radix2 1) by (cbn; lra); rewrite fmt_pow2 by lia; reflexivity).
    replace (rnd64 (1 - 0)) with 1 by (replace (1 - 0) with (bpow radix2 0) by (cbn; lra); rewrite fmt_pow2 by lia; reflexivity).
    replace (max_list [2; 1]) with 2 by (cbn; unfold Rmax; destruct (Rle_dec _ _); lra). reflexivity.
  - apply Rlt_le_trans with (bpow radix2 (-50)); [apply bpow_gt_0|]. rewrite <- fmt_pow2 by lia. apply rnd64_le. unfold ptol0.
    change (bpow radix2 (-50)) with (/ 1125899906842624). lra.
Qed.
(** the tear stays, whatever its width *)
Theorem C97_tear_stays_refuted : forall eps, 0 < eps -> exists p t,
  (forall r v, In r t -> In v r -> (v < length p)%nat) /\
  (forall c, Rabs (nth c (nth 0 p []) 0 - nth c (nth 3 p []) 0) <= eps /\ Rabs (nth c (nth 1 p []) 0 - nth c (nth 4 p []) 0) <= eps) /\
  forall uniqK uniqR, uniq_ok uniqK -> uniq_ok uniqR -> forall fix_orientation,
  exists p' t' jx, fix_mesh64 uniqK uniqR ptol0 p t false fix_orientation = Ok (p', t', jx) /\
    nth 0 jx O <> nth 3 jx O /\ nth 1 jx O <> nth 4 jx O.
Proof.
  intros eps P. set (e := Rmin eps 1). assert (E : 0 < e <= 1) by (unfold e, Rmin; destruct (Rle_dec eps 1); lra). assert (E' : e <= eps) by (unfold e; apply Rmin_l).
  exists (seam_p e), seam_t. split; [intros r v [<- | [<- | []]] Hv; cbn in *; lia|]. split.
  - assert (Z : forall c : nat, nth c ([] : list R) 0 = 0) by (intros [|c]; reflexivity).
    intros [|[|c]]; unfold seam_p; cbn [nth]; rewrite ?Z; (replace (0 - - e) with e by ring) || idtac;
      rewrite ?Rminus_diag_eq by reflexivity; rewrite ?Rabs_R0, ?(Rabs_right e) by lra; lra.
  - intros uniqK uniqR HK HR ori.
    assert (V : forall r v, In r seam_t -> In v r -> (v < length (seam_p e))%nat) by (intros r v [<- | [<- | []]] Hv; cbn in *; lia).
    destruct (proj2 (C33_fix_mesh_total uniqK uniqR (snap_key (snap_width ptol0 (seam_p e))) (seam_p e) seam_t false ori)) as [[[p' t'] jx] H];
      [split; [discriminate | exact V]|].
    destruct (seam_width e E) as [W P0]. exists p', t', jx. split; [exact H|].
    assert (P1 : 0 < snap_width ptol0 (seam_p e)) by (rewrite W; exact P0).
    split; apply not_eq_sym; eapply (C97_zero_separates uniqK uniqR ptol0 (seam_p e) seam_t ori p' t' jx _ _ 0%nat HK HR H P1); cbn; lia || lra.
Qed.
Print Assumptions C97_tear_stays_refuted.
(** the same tear at x > 0 is closed if it is narrow enough: the vertices 2 and 3 below are merged *)
Example C97_case : exists p t, (forall r v, In r t -> In v r -> (v < length p)%nat) /\ nth 2 p [] <> nth 3 p [] /\
  forall uniqK uniqR, uniq_ok uniqK -> uniq_ok uniqR -> exists p' t' jx,
    fix_mesh64 uniqK uniqR ptol0 p t false true = Ok (p', t', jx) /\ 0 < snap_width ptol0 p /\ nth 2 jx O = nth 3 jx O.
Proof.
  set (w := rnd64 (2 * ptol0)). assert (W : 0 < w) by apply (seam_width 1 ltac:(lra)).
  assert (W1 : w <= / 2199023255552).
  { unfold w. change (/ 2199023255552) with (bpow radix2 (-41)). rewrite <- (fmt_pow2 (-41)) by lia. apply rnd64_le. unfold ptol0.
    change (bpow radix2 (-41)) with (/ 2199023255552). lra. }
  set (Y := 1099511627776 * w). assert (HY : 0 < Y <= 1 / 2) by (unfold Y; lra).
  set (p := [[-1;0];[1;0];[w;Y];[w + w / 8;Y]]). exists p, [[0;1;2];[0;1;3]]%nat.
  assert (V : forall r v, In r [[0;1;2];[0;1;3]]%nat -> In v r -> (v < length p)%nat) by (intros r v [<- | [<- | []]] Hv; cbn in *; lia).
  split; [exact V|]. split; [intro Q; injection Q as Q; lra|]. intros uniqK uniqR HK HR.
  assert (SW : snap_width ptol0 p = w).
  { unfold snap_width, p, column. cbn [nth length seq map].
    replace (max_list [-1; 1; w; w + w / 8]) with 1 by (cbn; unfold Rmax; repeat (destruct (Rle_dec _ _); try lra)).
    replace (min_list [-1; 1; w; w + w / 8]) with (-1) by (cbn; unfold Rmin; repeat (destruct (Rle_dec _ _); try lra)).
    replace (max_list [0; 0; Y; Y]) with Y by (cbn; unfold Rmax; repeat (destruct (Rle_dec _ _); try lra)).
    replace (min_list [0; 0; Y; Y]) with 0 by (cbn; unfold Rmin; repeat (destruct (Rle_dec _ _); try lra)).
    replace (rnd64 (1 - -1)) with 2 by (replace (1 - -1) with (bpow radix2 1) by (cbn; lra); rewrite fmt_pow2 by lia; reflexivity).
    assert (rnd64 (Y - 0) <= 1). { change 1 with (bpow radix2 0). rewrite <- (fmt_pow2 0) by lia. apply rnd64_le. change (bpow radix2 0) with 1. lra. }
    replace (max_list [2; rnd64 (Y - 0)]) with 2 by (cbn; unfold Rmax; destruct (Rle_dec _ _); lra). reflexivity. }
  destruct (proj2 (C33_fix_mesh_total uniqK uniqR (snap_key (snap_width ptol0 p)) p [[0;1;2];[0;1;3]]%nat false true)) as [[[p' t'] jx] H];
    [split; [discriminate | exact V]|].
  exists p', t', jx. split; [exact H|]. rewrite SW. split; [exact W|].
  apply (C97_close_are_merged uniqK uniqR ptol0 p _ true p' t' jx 2 3 HK HR H); rewrite ?SW; [exact W | cbn; lia | cbn; lia | reflexivity |].
  intros c C. cbn [p nth length] in C |- *. destruct c as [|[|c]]; [| | lia]; cbn [nth].
  - split; [lra|]. exists 1%Z. split; [lia|]. split; [rewrite Rabs_right; lra | rewrite Rabs_right; lra].
  - split; [lra|]. exists 1099511627776%Z. split; [lia|]. unfold Y. split; rewrite Rabs_right; lra.
Qed.
