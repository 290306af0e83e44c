(** C131: set operations in double precision. *)
From Coq Require Import List ZArith Reals Bool Arith Lia Lra.
From Flocq Require Import Core.
From Verif Require Import Model.Base Model.FastHJ Model.SDF Model.Round Model.Sets64 Spec.Geom Proofs.ListAux Proofs.SnapProofs Proofs.RoundProofs Proofs.LipProofs Proofs.SDFPrim Proofs.SDFBox Proofs.SDFSets Proofs.Sets64Proofs Props.P32_round.
Import ListNotations.
Local Open Scope R_scope.

(** the computed operands (shapes whose values are computed in double precision) are within e of the exact ones at p *)
Definition operands_close (e : R) (p : pt) (ds' ds : list domain) : Prop := Forall2 (fun c x => Rabs (d_eval c p - d_eval x p) <= e) ds' ds.

Lemma close_vals e p ds' ds : operands_close e p ds' ds -> Forall2 (fun x y => Rabs (x - y) <= e) (map (fun d => d_eval d p) ds') (map (fun d => d_eval d p) ds).
Proof. intros H. induction H; cbn [map]; constructor; assumption. Qed.
Lemma map_ne {A B} (f : A -> B) l : l <> [] -> map f l <> [].
Proof. destruct l; [contradiction|discriminate]. Qed.

(** ---- without smoothing nothing is added ---- *)
Theorem C131_sharp : forall e p ds' ds d' d, operands_close e p ds' ds ->
  (Union64 0 ds' = Ok d' /\ Union 0 ds = Ok d) \/ (Intersection64 0 ds' = Ok d' /\ Intersection 0 ds = Ok d) \/ (Difference64 0 ds' = Ok d' /\ Difference 0 ds = Ok d) ->
  Rabs (d_eval d' p - d_eval d p) <= e.
Proof.
  intros e p ds' ds d' d C H. apply close_vals in C.
  assert (Z : Reqb 0 0 = true) by (apply Reqb_true; reflexivity).
  assert (MI : forall a b c d m, Rabs (a - c) <= m -> Rabs (b - d) <= m -> Rabs (Rmin a b - Rmin c d) <= m).
  { intros a b c x m A B. apply Rabs_le_inv in A, B. apply Rabs_le. unfold Rmin. destruct (Rle_dec a b), (Rle_dec c x); lra. }
  assert (MA : forall a b c d m, Rabs (a - c) <= m -> Rabs (b - d) <= m -> Rabs (Rmax a b - Rmax c d) <= m).
  { intros a b c x m A B. apply Rabs_le_inv in A, B. apply Rabs_le. unfold Rmax. destruct (Rle_dec a b), (Rle_dec c x); lra. }
  destruct H as [[H' H]|[[H' H]|[H' H]]]; apply set_init_eval in H', H; destruct H' as [N' ->], H as [N ->].
  - unfold union_vals64, union_vals. rewrite Z. apply reduce_slope; [auto|apply map_ne, N'|exact C].
  - unfold intersection_vals64, intersection_vals. rewrite Z. apply reduce_slope; [auto|apply map_ne, N'|exact C].
  - unfold difference_vals64, difference_vals. rewrite Z. apply reduce_slope; [auto| |].
    + destruct ds' as [|x l]; [contradiction|]. discriminate.
    + inversion C as [|x y l l' A B E1 E2]; [constructor|]. constructor; [exact A|]. clear - B. induction B as [|x y l l' A B IH]; cbn [map]; constructor; [|exact IH].
      replace (- x - - y) with (- (x - y)) by ring. rewrite Rabs_Ropp. exact A.
Qed.
Print Assumptions C131_sharp.
(** so the point is put on the right side if it is further than that from the boundary *)
Theorem C131_sharp_side : forall e p ds' ds d' d, operands_close e p ds' ds ->
  (Union64 0 ds' = Ok d' /\ Union 0 ds = Ok d) \/ (Intersection64 0 ds' = Ok d' /\ Intersection 0 ds = Ok d) \/ (Difference64 0 ds' = Ok d' /\ Difference 0 ds = Ok d) ->
  e < Rabs (d_eval d p) -> (d_eval d' p < 0 <-> d_eval d p < 0) /\ (0 < d_eval d' p <-> 0 < d_eval d p).
Proof.
  intros e p ds' ds d' d C H L. pose proof (C131_sharp e p ds' ds d' d C H) as E. apply Rabs_le_inv in E. unfold Rabs in L. destruct (Rcase_abs _) in L; split; split; intros; lra.
Qed.
Print Assumptions C131_sharp_side.

(** ---- with smoothing ---- *)
Theorem C131_smooth : forall k M e p ds' ds d' d, operands_close e p ds' ds -> / 2 ^ 400 <= k <= M -> rnd64 k = k -> Forall (fun c => Rabs (d_eval c p) <= M) ds' -> INR (length ds') <= 2 ^ 40 ->
  (Union64 k ds' = Ok d' /\ Union k ds = Ok d) \/ (Intersection64 k ds' = Ok d' /\ Intersection k ds = Ok d) \/ (Difference64 k ds' = Ok d' /\ Difference k ds = Ok d) ->
  Rabs (d_eval d' p - d_eval d p) <= e + / 2 ^ 50 * (INR (length ds') * (INR (length ds') - 1)) * M.
Proof.
  intros k M e p ds' ds d' d C HK RK F HL H. apply close_vals in C. assert (P : 0 < / 2 ^ 400) by (apply Rinv_0_lt_compat, pow_lt; lra).
  assert (Z : Reqb k 0 = false) by (apply Reqb_false; lra). assert (F' : Forall (fun x => Rabs x <= M) (map (fun d => d_eval d p) ds')) by (apply Forall_map; exact F).
  destruct H as [[H' H]|[[H' H]|[H' H]]]; apply set_init_eval in H', H; destruct H' as [N' ->], H as [N ->].
  - unfold union_vals64, union_vals. rewrite Z. rewrite <- (map_length (fun d => d_eval d p) ds') in HL |- *.
    apply (reduce_err (smooth_union k) (smooth_union64 k) k M e); try assumption; [lra|lra| | |apply map_ne, N'].
    + intros; apply smin_slope; [lra|assumption..].
    + intros; apply smooth_union_err; [lra|assumption..].
  - unfold intersection_vals64, intersection_vals. rewrite Z. rewrite <- (map_length (fun d => d_eval d p) ds') in HL |- *.
    apply (reduce_err (smooth_intersection k) (smooth_intersection64 k) k M e); try assumption; [lra|lra| | |apply map_ne, N'].
    + intros; apply smax_slope; [lra|assumption..].
    + intros; apply smooth_inter_err; [lra|assumption..].
  - unfold difference_vals64, difference_vals. rewrite Z. rewrite <- (map_length (fun d => d_eval d p) ds'), <- (rev_length (map _ ds')) in HL |- *.
    apply (reduce_err (smooth_difference k) (smooth_difference64 k) k M e); try assumption; [lra|lra| | | | |].
    + intros; apply sdiff_slope; [lra|assumption..].
    + intros; apply smooth_diff_err; [lra|assumption..].
    + intro E. apply (f_equal (@length R)) in E. rewrite rev_length, map_length in E. destruct ds'; [contradiction|discriminate].
    + clear - C. induction C as [|x y l l' A B IH]; cbn [rev]; [constructor|]. apply Forall2_app; [exact IH|constructor; [exact A|constructor]].
    + apply Forall_rev, F'.
Qed.
Print Assumptions C131_smooth.
(** where the two operands (doubles) differ by at least k, smoothing changes nothing, in double precision too *)
Theorem C131_far_apart : forall k a b, 0 < k -> rnd64 k = k -> rnd64 a = a -> rnd64 b = b -> k <= Rabs (a - b) ->
  smooth_union64 k a b = Rmin a b /\ smooth_intersection64 k a b = Rmax a b.
Proof.
  intros k a b K RK RA RB H. assert (E : blend64 k (rnd64 (a - b)) = 0).
  { unfold blend64. apply Rmax_right. assert (k <= Rabs (rnd64 (a - b))).
    { unfold Rabs in H |- *. destruct (Rcase_abs (a - b)) as [Q|Q].
      - assert (rnd64 (a - b) <= - k). { rewrite <- RK, <- rnd64_opp. apply rnd64_le. lra. } destruct (Rcase_abs _); lra.
      - assert (k <= rnd64 (a - b)). { rewrite <- RK at 1. apply rnd64_le. lra. } destruct (Rcase_abs _); lra. }
    apply Rle_trans with (rnd64 0); [apply rnd64_le; lra|right; apply rnd64_0]. }
  unfold smooth_union64, smooth_intersection64. cbv zeta. rewrite E. rewrite Rmult_0_l, rnd64_0, Rmult_0_l, rnd64_0. unfold Rdiv. rewrite Rmult_0_l, rnd64_0, Rminus_0_r, Rplus_0_r.
  unfold Rmin, Rmax. destruct (Rle_dec a b); split; assumption.
Qed.
Print Assumptions C131_far_apart.

(** Disks: the computed Disk has the box of the exact one and the value of C98. *)
Definition disk_dom64 (xc yc r : R) : domain := let d := Disk xc yc r no_manip in mkDom (d_dim d) (d_bbox d) (d_corners d) (ddisk64 xc yc r).
Lemma disks_close e x y cs : Forall (fun c => blur [fst (fst c); snd (fst c)] [x; y] (snd c) <= e) cs ->
  operands_close e [x; y] (map (fun c => disk_dom64 (fst (fst c)) (snd (fst c)) (snd c)) cs) (map (fun c => Disk (fst (fst c)) (snd (fst c)) (snd c) no_manip) cs).
Proof.
  intros HB. unfold operands_close. induction cs as [|c cs IH]; cbn [map]; [constructor|]. inversion HB as [|? ? B Bs]; subst. constructor; [|apply IH, Bs].
  eapply Rle_trans; [|exact B]. change (d_eval (disk_dom64 (fst (fst c)) (snd (fst c)) (snd c)) [x; y]) with (ddisk64 (fst (fst c)) (snd (fst c)) (snd c) [x; y]).
  unfold Disk. rewrite no_manip_eval, ddisk_edist. apply C98_disk.
Qed.
Theorem C131_disks : forall k M e x y (cs : list (R * R * R)) d' d,
  (k = 0 \/ (/ 2 ^ 400 <= k <= M /\ rnd64 k = k /\ INR (length cs) <= 2 ^ 40 /\ Forall (fun c => Rabs (ddisk64 (fst (fst c)) (snd (fst c)) (snd c) [x; y]) <= M) cs)) ->
  0 <= M -> (1 <= length cs)%nat -> Forall (fun c => blur [fst (fst c); snd (fst c)] [x; y] (snd c) <= e) cs ->
  let ds' := map (fun c => disk_dom64 (fst (fst c)) (snd (fst c)) (snd c)) cs in let ds := map (fun c => Disk (fst (fst c)) (snd (fst c)) (snd c) no_manip) cs in
  (Union64 k ds' = Ok d' /\ Union k ds = Ok d) \/ (Intersection64 k ds' = Ok d' /\ Intersection k ds = Ok d) \/ (Difference64 k ds' = Ok d' /\ Difference k ds = Ok d) ->
  Rabs (d_eval d' [x; y] - d_eval d [x; y]) <= e + / 2 ^ 50 * (INR (length cs) * (INR (length cs) - 1)) * M.
Proof.
  intros k M e x y cs d' d HK HM HN HB ds' ds H.
  pose proof (disks_close e x y cs HB) as C. fold ds' ds in C.
  destruct HK as [->|(K & RK & L & F)].
  - eapply Rle_trans; [exact (C131_sharp e [x; y] ds' ds d' d C H)|]. assert (0 <= / 2 ^ 50 * (INR (length cs) * (INR (length cs) - 1)) * M); [|lra].
    apply le_INR in HN. cbn [INR] in HN. apply Rmult_le_pos; [apply Rmult_le_pos; [left; apply Rinv_0_lt_compat, pow_lt; lra|apply Rmult_le_pos; lra]|exact HM].
  - assert (LE : length ds' = length cs) by apply map_length. rewrite <- LE in L |- *. apply (C131_smooth k M e [x; y] ds' ds d' d); try assumption. unfold ds'. apply Forall_map. exact F.
Qed.
Print Assumptions C131_disks.

(** two overlapping unit disks, smoothed and not: all constructors succeed, and near (1,3) the sides are right *)
Definition pair64 := [disk_dom64 0 0 1; disk_dom64 1 0 1].
Definition pair := [Disk 0 0 1 no_manip; Disk 1 0 1 no_manip].
Example C131_case : exists a' a b' b, Union64 (1/4) pair64 = Ok a' /\ Union (1/4) pair = Ok a /\ Difference64 0 pair64 = Ok b' /\ Difference 0 pair = Ok b /\
  operands_close (/ 2 ^ 40) [1; 3] pair64 pair /\ Rabs (d_eval a' [1; 3] - d_eval a [1; 3]) <= / 2 ^ 39 /\ 0 < d_eval b' [1; 3].
Proof.
  assert (OK : forall ev, exists d, set_init ev pair = Ok d).
  { intros ev. unfold set_init, pair, dims_guard. cbn [d_dim Disk make_prim set_bbox]. unfold get_all. cbn [fold_right Nat.mul Nat.add]. unfold Disk. rewrite !no_manip_bbox. cbn [nth_error obind rbind]. eexists. reflexivity. }
  assert (OK64 : forall ev, exists d, set_init ev pair64 = Ok d).
  { intros ev. unfold set_init, pair64, dims_guard, disk_dom64. cbn [d_dim Disk make_prim set_bbox]. unfold get_all. cbn [fold_right Nat.mul Nat.add d_bbox]. unfold Disk. rewrite !no_manip_bbox. cbn [nth_error obind rbind]. eexists. reflexivity. }
  destruct (OK64 (fun ds x => union_vals64 (1/4) (map (fun d => d_eval d x) ds))) as [a' A']. destruct (OK (fun ds x => union_vals (1/4) (map (fun d => d_eval d x) ds))) as [a A].
  destruct (OK64 (fun ds x => difference_vals64 0 (map (fun d => d_eval d x) ds))) as [b' B']. destruct (OK (fun ds x => difference_vals 0 (map (fun d => d_eval d x) ds))) as [b B0].
  exists a', a, b', b. split; [exact A'|]. split; [exact A|]. split; [exact B'|]. split; [exact B0|]. clear OK OK64.
  assert (B : Forall (fun c => blur [fst (fst c); snd (fst c)] [1; 3] (snd c) <= / 2 ^ 40) [(0, 0, 1); (1, 0, 1)]).
  { assert (T : / 2 ^ 533 <= / 2 ^ 48) by (apply Rinv_le_contravar; [apply pow_lt; lra|apply Rle_pow; [lra|lia]]). assert (N : forall q, 0 <= q <= 16 -> sqrt q <= 4) by (intros q Q; rewrite <- (sqrt_square 4) by lra; apply sqrt_le_1_alt; lra).
    repeat constructor; unfold blur; cbn [fst snd]; (assert (edist [1; 3] [0; 0] <= 4) by (apply N; cbn; lra)); (assert (edist [1; 3] [1; 0] <= 4) by (apply N; cbn; lra)); rewrite (Rabs_pos_eq 1) by lra;
      replace (2 ^ 40) with 1099511627776 by ring; replace (2 ^ 48) with 281474976710656 in * by ring; lra. }
  assert (V : forall xc, blur [xc; 0] [1; 3] 1 <= / 2 ^ 40 -> 9 <= (1 - xc) ^ 2 + 9 <= 16 -> Rabs (ddisk64 xc 0 1 [1; 3] - (edist [1; 3] [xc; 0] - 1)) <= / 2 ^ 40 /\ 3 <= edist [1; 3] [xc; 0] <= 4).
  { intros xc Q R. split; [eapply Rle_trans; [apply C98_disk|exact Q]|]. unfold edist. replace (sqdist [1; 3] [xc; 0]) with ((1 - xc) ^ 2 + 9) by (cbn; ring).
    rewrite <- (sqrt_square 3), <- (sqrt_square 4) by lra. split; apply sqrt_le_1_alt; lra. }
  pose proof (disks_close (/ 2 ^ 40) 1 3 [(0, 0, 1); (1, 0, 1)] B) as C. cbn [map fst snd] in C. fold pair64 pair in C. split; [exact C|].
  assert (B1 := Forall_inv B). assert (B2 := Forall_inv (Forall_inv_tail B)). cbn [fst snd] in B1, B2. destruct (V 0 B1 ltac:(lra)) as [V1 W1]. destruct (V 1 B2 ltac:(lra)) as [V2 W2].
  replace (2 ^ 40) with 1099511627776 in * by ring. apply Rabs_le_inv in V1, V2. split.
  - eapply Rle_trans; [apply (C131_disks (1/4) 4 (/ 1099511627776) 1 3 [(0, 0, 1); (1, 0, 1)])|].
    + right. split; [split; [|lra]|split; [|split]].
      * apply Rle_trans with (/ 2 ^ 2); [apply Rinv_le_contravar; [apply pow_lt; lra|apply Rle_pow; [lra|lia]]|lra].
      * replace (1/4) with (bpow radix2 (-2)); [apply fmt_bpow; lia|]. change (bpow radix2 (-2)) with (/ 4). lra.
      * cbn [length INR]. lra.
      * (apply Forall_cons; [|apply Forall_cons; [|apply Forall_nil]]); cbn [fst snd]; apply Rabs_le; lra.
    + lra.
    + cbn. lia.
    + exact B.
    + left. split; [exact A'|exact A].
    + cbn [length INR]. replace (2 ^ 50) with 1125899906842624 by ring. replace (2 ^ 39) with 549755813888 by ring. lra.
  - apply set_init_eval in B'. destruct B' as [_ B'].
    assert (E : d_eval b' [1; 3] = Rmax (ddisk64 0 0 1 [1; 3]) (- ddisk64 1 0 1 [1; 3])).
    { rewrite B'. unfold difference_vals64. rewrite (proj2 (Reqb_true 0 0) eq_refl). reflexivity. }
    rewrite E. pose proof (Rmax_l (ddisk64 0 0 1 [1; 3]) (- ddisk64 1 0 1 [1; 3])). lra.
Qed.
