(** C124: smoothing and maps of the plane (exact arithmetic; the linear solver returns a solution).  [moved_by], [isometry]: Spec/Affine.v. *)
From Coq Require Import List ZArith Reals Bool Arith Lia Lra.
From Verif Require Import Model.Base Model.SDF Model.Simplex Model.Mesh Model.Laplace Spec.MeshTopo Spec.Smooth Spec.Affine Proofs.ListAux Proofs.MeshAux
  Proofs.EdgeProofs Proofs.TopoProofs Proofs.LaplaceProofs Proofs.LaplaceFixed Proofs.LinSolve Proofs.ConvergeProofs Proofs.AffineProofs Props.P06_mesh Props.P08_laplace.
Import ListNotations.
Local Open Scope R_scope.

Definition moved_mesh (m : affine) (r : result (list (list R) * list (list nat))) : result (list (list R) * list (list nat)) :=
  match r with Ok (p, t) => Ok (map (moved_by m) p, t) | Err e => Err e end.

(** rotating, reflecting or shifting the mesh and the points to keep gives the rotated, reflected or shifted result, or the same exception *)
Theorem C124_isometry : forall uniq p t max_iter tol pfix m, isometry m ->
  (forall r, In r t -> simplex 3 r) -> (forall r v, In r t -> In v r -> (v < length p)%nat) -> (forall x, In x p -> length x = 2%nat) ->
  (forall q, In q (asked pfix) -> length q = 2%nat) ->
  laplacian2 uniq (map (moved_by m) p) t max_iter tol (option_map (map (moved_by m)) pfix) = moved_mesh m (laplacian2 uniq p t max_iter tol pfix).
Proof.
  intros uniq p t k tol pfix m IM HT HV HP HQ. unfold laplacian2. rewrite map_length.
  assert (map (fun q => closest_node q (map (moved_by m) p)) (match option_map (map (moved_by m)) pfix with None => [] | Some l => l end)
          = map (fun q => closest_node q p) (match pfix with None => [] | Some l => l end)) as EC.
  { destruct pfix as [l|]; [|reflexivity]. cbn [option_map]. rewrite map_map. apply map_ext_in. intros q Hq. apply closest_iso; auto. }
  rewrite EC. clear EC. destruct (existsb _ (seq 0 (length p))) eqn:E; [reflexivity|].
  assert (forall v, (v < length p)%nat -> exists r, In r t /\ In v r) as U.
  { destruct (used_dec t (length p)) as [N|U]; [|exact U]. apply (unused_test p t HT) in N. congruence. }
  rewrite edge_lens_iso by assumption. rewrite loop_iso by assumption.
  destruct (get_boundary_vertices uniq 2 t); destruct pfix as [[|]|]; destruct k; reflexivity.
Qed.
Print Assumptions C124_isometry.

(** with tol <= 0, and for laplacian2_fixed_point, every affine map may be applied before or after *)
Theorem C124_affine_without_stopping : forall uniq p t max_iter tol m, uniq_ok uniq -> tol <= 0 ->
  (forall r, In r t -> simplex 3 r) -> (forall r v, In r t -> In v r -> (v < length p)%nat) -> (forall x, In x p -> length x = 2%nat) ->
  laplacian2 uniq (map (moved_by m) p) t max_iter tol None = moved_mesh m (laplacian2 uniq p t max_iter tol None).
Proof.
  intros uniq p t k tol m HU T HT HV HP. unfold laplacian2. rewrite map_length. cbn [map]. destruct (existsb _ (seq 0 (length p))) eqn:E; [reflexivity|].
  assert (forall v, (v < length p)%nat -> exists r, In r t /\ In v r) as U.
  { destruct (used_dec t (length p)) as [N|U]; [|exact U]. apply (unused_test p t HT) in N. congruence. }
  pose proof (proj2 (boundary_vertices_spec uniq 2 t (or_introl eq_refl) HU HT)) as BS.
  destruct (get_boundary_vertices uniq 2 t) as [|b0 bs] eqn:EB; [destruct k; reflexivity|].
  pose proof (proj1 (BS b0) (or_introl eq_refl)) as B0. fold (on_boundary t b0) in B0. destruct (boundary_edge t b0 HT B0) as [a [b [Ba [Bb IE]]]].
  assert (forall v, on_boundary t v -> (v < length p)%nat) as BL.
  { intros v [f [_ [_ [C F]]]]. destruct (on_some f t C) as [r [Hr HF]]. apply (HV r v Hr (HF v F)). }
  rewrite (loop_free m t _ (get_edges 2 t) tol a b HT T IE) by (try assumption; try (apply BL; assumption); apply in_or_app; left; apply BS; assumption).
  destruct k; reflexivity.
Qed.
Print Assumptions C124_affine_without_stopping.
Theorem C124_affine_fixed_point : forall uniq p t x m,
  (forall r, In r t -> simplex 3 r) -> (forall r v, In r t -> In v r -> (v < length p)%nat) -> (forall y, In y p -> length y = 2%nat) ->
  (forall y, In y x -> length y = 2%nat) ->
  lap_solves uniq p t x -> lap_solves uniq (map (moved_by m) p) t (map (moved_by m) x).
Proof. intros uniq p t x m HT HV HP HX. exact (solves_moved m uniq p t x HT HV HP HX). Qed.
Print Assumptions C124_affine_fixed_point.

(** with tol > 0 a mere change of the unit along one axis changes the result: the sweeps stop earlier or later *)
Definition skew_p : list (list R) := [[0;0];[4;0];[4;4];[0;4];[1000;0];[2000;0]].
Definition skew_q : list (list R) := [[0;0];[4;0];[4;4];[0;4];[2008/5;8/5];[336;4/3]].
Definition squeeze : affine := mkAffine (1/1000) 0 0 1 0 0.
Lemma edge_continues es tol p q a b : In [a; b] es ->
  (forall l l', l = sub_len (nth a q []) (nth b q []) -> l' = sub_len (nth a p []) (nth b p []) -> eps52 <= l /\ eps52 <= l' /\ tol <= (l - l') / l) ->
  Rltb (max_list (map2 (fun ln l => (ln - l) / ln) (edge_lens es q) (edge_lens es p))) tol = false.
Proof.
  intros I H. destruct (H _ _ eq_refl eq_refl) as [E1 [E2 E3]]. apply Rltb_false. eapply Rle_trans; [exact E3|]. apply max_list_ge. unfold map2. apply in_map_iff.
  destruct (In_nth_error _ _ I) as [k Hk].
  pose (len := fun (p : list (list R)) (e : list nat) => let l := sub_len (nth (nth 0 e O) p []) (nth (nth 1 e O) p []) in if Rltb l eps52 then eps52 else l).
  exists (len q [a; b], len p [a; b]). split.
  - cbn [fst snd]. unfold len. cbn [nth]. cbv zeta. rewrite (proj2 (Rltb_false _ _) E1), (proj2 (Rltb_false _ _) E2). reflexivity.
  - apply (nth_error_In _ k). apply nth_error_combine; unfold edge_lens; fold (len q) (len p); apply map_nth_error; exact Hk.
Qed.
Lemma skew_sweep uniq : uniq_ok uniq -> lap_sweep far_t (get_boundary_vertices uniq 2 far_t ++ []) skew_p = skew_q.
Proof.
  intros HU. destruct far_ok as [HT [HV [U B]]]. apply (step_unique far_t (held far_t skew_p None) skew_p); [apply held_dec| |].
  - apply sweep_step; try assumption; [rows2|]. apply (fixed_mem uniq far_t skew_p None HU HT); [rows2|discriminate|intros q []].
  - apply far_step; try reflexivity; [apply far_held|rows2|..].
    + intros v Lv. destruct v as [|[|[|[|v]]]]; [reflexivity..|lia].
    + intros j Lj. destruct j as [|[|j]]; [..|lia]; unfold coord; cbn; lra.
    + intros j Lj. destruct j as [|[|j]]; [..|lia]; unfold coord; cbn; lra.
Qed.
Theorem C124_stretch_refuted : exists p t m, ma m * md m - mb m * mc m <> 0 /\ mb m = 0 /\ mc m = 0 /\
  (forall r, In r t -> simplex 3 r) /\ (forall r v, In r t -> In v r -> (v < length p)%nat) /\ (forall x, In x p -> length x = 2%nat) /\
  forall uniq, uniq_ok uniq -> exists p1 p2, laplacian2 uniq p t 2 (1 / 100) None = Ok (p1, t) /\
    laplacian2 uniq (map (moved_by m) p) t 2 (1 / 100) None = Ok (p2, t) /\ p2 <> map (moved_by m) p1.
Proof.
  destruct far_ok as [HT [HV [U B]]]. exists skew_p, far_t, squeeze.
  split; [cbn; lra|]. split; [reflexivity|]. split; [reflexivity|]. split; [exact HT|]. split; [exact HV|]. split; [rows2|].
  intros uniq HU. exists skew_q.
  assert (forall p, length p = 6%nat -> exists p2, laplacian2 uniq p far_t 2 (1 / 100) None = Ok (p2, far_t)) as SU.
  { intros p Lp. apply (proj1 (C52_succeeds uniq p far_t 2 (1 / 100) None HU HT ltac:(rewrite Lp; exact U))); [exists 0%nat; apply B; lia|discriminate]. }
  set (m := squeeze). destruct (SU (map (moved_by m) skew_p) eq_refl) as [p2 E2]. exists p2. split; [|split; [exact E2|]].
  - apply C53_stops_when_edges_shrink; try assumption; try lra; try lia.
    + rows2.
    + intros x [].
    + exists 0%nat. apply B. lia.
    + discriminate.
    + rewrite <- (skew_sweep uniq HU). apply sweep_step; try assumption; [rows2|]. apply (fixed_mem uniq far_t skew_p None HU HT); [rows2|discriminate|intros q []].
    + intros r a b Hr [i [j [Li [Lj [Nij [<- <-]]]]]]. cbn in Hr.
      repeat (destruct Hr as [<- | Hr]; [cbn [length] in Li, Lj; destruct i as [|[|[|i]]]; try lia; destruct j as [|[|[|j]]]; try lia; unfold gap2; cbn; lra|]). destruct Hr.
  - destruct (laplacian2_used uniq (map (moved_by m) skew_p) far_t 2 (1 / 100) None p2 far_t HT U E2) as [_ EL]. cbn [asked map] in EL. clear E2.
    set (fx := get_boundary_vertices uniq 2 far_t ++ []) in *.
    assert (lap_sweep far_t fx (map (moved_by m) skew_p) = map (moved_by m) skew_q) as S1.
    { rewrite sweep_moved; try assumption; [f_equal; apply skew_sweep, HU|rows2]. }
    fold (map (moved_by m) skew_p) in EL. change [moved_by m [0; 0]; moved_by m [4; 0]; moved_by m [4; 4]; moved_by m [0; 4]; moved_by m [1000; 0]; moved_by m [2000; 0]] with (map (moved_by m) skew_p) in EL.
    cbn [lap_loop] in EL. rewrite S1 in EL. rewrite (edge_continues _ _ _ _ 0 4) in EL.
    + assert (p2 = map (moved_by m) (lap_sweep far_t fx skew_q)) as E2.
      { rewrite <- sweep_moved; try assumption; [|rows2]. destruct (Rltb _ (1 / 100)) in EL; exact EL. }
      rewrite E2. intros K. apply (f_equal (fun l => nth 0 (nth 4 l []) 0)) in K. rewrite !moved_nth in K.
      assert (length (nth 4 (lap_sweep far_t fx skew_q) []) = 2%nat) as L2 by (apply (sweep_rows2 far_t fx skew_q); [rows2|apply nth_In; rewrite sweep_length; cbn; lia]).
      rewrite !moved_0 in K by (first [exact L2|reflexivity]). cbn [ma mb me m squeeze] in K.
      pose proof (sweep_step far_t fx skew_q (held far_t skew_q None) HT HV ltac:(rows2) U (fixed_mem uniq far_t skew_q None HU HT ltac:(rows2) ltac:(discriminate) ltac:(intros q []))) as ST.
      destruct (proj2 ST 4%nat ltac:(cbn; lia)) as [_ [_ A]]. destruct A as [_ A]; [rewrite far_held; lia|]. specialize (A 0%nat ltac:(lia)).
      unfold coord in A at 1. set (z := nth 0 (nth 4 (lap_sweep far_t fx skew_q) []) 0) in *. unfold links, coord in A. cbn in A, K. lra.
    + assert (existsb (fun e => if list_eq_dec Nat.eq_dec e [0;4]%nat then true else false) (get_edges 2 far_t) = true) as EX by reflexivity.
      apply existsb_exists in EX. destruct EX as [e [Ie Ee]]. destruct (list_eq_dec Nat.eq_dec e [0;4]%nat) as [->|]; [exact Ie|discriminate].
    + intros l l' -> ->. cbn [skew_p skew_q map nth]. rewrite !sub_len_gap by reflexivity. unfold gap2. cbn [nth moved_by m squeeze ma mb mc md me mf].
      assert (eps52 <= 1 / 2) as EP.
      { unfold eps52. apply Rle_trans with (/ 2 ^ 1); [|lra]. apply Rinv_le_contravar; [lra|]. apply Rle_pow; [lra|lia]. }
      set (y := sqrt _). set (y' := sqrt _).
      assert (8 / 5 <= y) as Y1. { unfold y. apply Rsqr_incr_0_var; [|apply sqrt_pos]. rewrite Rsqr_sqrt; unfold Rsqr; lra. }
      assert (y' = 1) as Y2. { unfold y'. transitivity (sqrt 1); [f_equal; lra|apply sqrt_1]. }
      rewrite Y2. split; [lra|]. split; [lra|]. apply (Rmult_le_reg_r y); [lra|]. unfold Rdiv. rewrite (Rmult_assoc (y - 1)), Rinv_l by lra. lra.
Qed.
Print Assumptions C124_stretch_refuted.
(** a quarter turn with a shift is an isometry; the fan of C52 turned by it is smoothed to the turned result *)
Definition quarter : affine := mkAffine 0 (-1) 1 0 5 7.
Example C124_case : isometry quarter /\ exists p', laplacian2 uniqR0 fan_p fan_t 20 (1/100) (Some [[1;2]]) = Ok (p', fan_t) /\ nth 4 p' [] = [1;1] /\
  laplacian2 uniqR0 (map (moved_by quarter) fan_p) fan_t 20 (1/100) (Some [[3;8]]) = Ok (map (moved_by quarter) p', fan_t).
Proof.
  assert (isometry quarter) as IQ by (unfold isometry; cbn; lra). split; [exact IQ|].
  destruct C52_case as [HT [B [_ [NE _]]]].
  assert (forall r v, In r fan_t -> In v r -> (v < length fan_p)%nat) as HV.
  { intros r v Hr Hv. cbn in Hr. repeat (destruct Hr as [<- | Hr]; [cbn in *; lia|]). destruct Hr. }
  assert (forall x, In x fan_p -> length x = 2%nat) as HP by rows2.
  assert (forall q, In q (asked (Some [[1;2]])) -> length q = 2%nat) as HQ by rows2.
  destruct (proj1 (C52_succeeds uniqR0 fan_p fan_t 20 (1/100) (Some [[1;2]]) uniqR0_ok HT ltac:(intros v Lv; cbn in Lv; destruct v as [|[|[|[|[|v]]]]]; [exists [0;1;4]%nat|exists [0;1;4]%nat|exists [1;2;4]%nat|exists [2;3;4]%nat|exists [0;1;4]%nat|lia]; cbn; tauto)) B ltac:(discriminate)) as [p' E].
  exists p'. split; [exact E|]. split.
  - destruct (C52_keeps_fixed_vertices_and_hull uniqR0 fan_p fan_t 20 (1/100) (Some [[1;2]]) p' fan_t uniqR0_ok HT HV HP HQ E) as [_ [_ [K _]]].
    rewrite (K [1;2] 4%nat); [reflexivity|left; reflexivity|exact NE].
  - pose proof (C124_isometry uniqR0 fan_p fan_t 20 (1/100) (Some [[1;2]]) quarter IQ HT HV HP HQ) as H. rewrite E in H. cbn [option_map moved_mesh] in H.
    rewrite <- H. f_equal. cbn. repeat f_equal; lra.
Qed.
