(** Newton projection onto the boundary (C71). *)
From Coq Require Import Reals List Arith Bool Lra Lia.
From Verif Require Import Model.Base Model.Mesh Model.Newton Spec.MeshTopo Spec.Geom Spec.Plane.
From Verif Require Import Proofs.ListAux Proofs.MeshAux Proofs.ForceProofs Proofs.NewtonProofs Proofs.TopoProofs.
Import ListNotations.
Local Open Scope R_scope.

(** One projection treats the points one by one and keeps their number and dimension.  For the domain (level 0) exactly the
    points at positive distance move; for a subdomain exactly those at positive distance below two thirds of hmin. *)
Theorem C71_who_moves : forall fd deps hmin level p,
  let q := project_back fd deps hmin level p in
  length q = length p /\
  (forall i, (i < length p)%nat -> length (nth i q []) = length (nth i p [])) /\
  (forall i, (i < length p)%nat -> fd (nth i p []) <= 0 -> nth i q [] = nth i p []) /\
  (forall i, (i < length p)%nat -> (0 < level)%nat -> hmin * 2 / 3 <= fd (nth i p []) -> nth i q [] = nth i p []) /\
  (forall i, (i < length p)%nat -> 0 < fd (nth i p []) -> (level = 0%nat \/ fd (nth i p []) < hmin * 2 / 3) ->
     nth i q [] = newton fd deps 1 (nth i p [])).
Proof.
  intros fd deps hmin level p q.
  assert (forall i, (i < length p)%nat -> nth i q [] = if outside_band hmin level (fd (nth i p [])) then newton fd deps 1 (nth i p []) else nth i p []) as E
    by (intros i H; unfold q, project_back; rewrite nth_map' with (d' := []) by exact H; reflexivity).
  split; [unfold q, project_back; apply map_length|]. repeat split; intros i H; rewrite E by exact H; unfold outside_band.
  - match goal with |- length (if ?b then _ else _) = _ => destruct b end; [apply newton_length|reflexivity].
  - intros D. rewrite (proj2 (Rltb_false _ _) D). destruct (level =? 0)%nat; reflexivity.
  - intros L D. destruct level as [|l]; [lia|]. cbn [Nat.eqb]. assert (Rltb (fd (nth i p [])) (hmin / (15 / 10)) = false) as -> by (apply Rltb_false; lra).
    rewrite andb_false_r. reflexivity.
  - intros D [-> | L]; [cbn [Nat.eqb]; rewrite (proj2 (Rltb_true _ _) D); reflexivity|].
    assert (Rltb (fd (nth i p [])) (hmin / (15 / 10)) = true) as -> by (apply Rltb_true; lra). rewrite (proj2 (Rltb_true _ _) D). destruct (level =? 0)%nat; reflexivity.
Qed.

(** With subdomains the projections follow one another; a point inside the domain and, for every subdomain, inside it or at
    least two thirds of hmin away, is not touched. *)
Theorem C71_levels_untouched : forall deps hmin fd subs p i, (i < length p)%nat -> fd (nth i p []) <= 0 ->
  (forall s, In s subs -> s (nth i p []) <= 0 \/ hmin * 2 / 3 <= s (nth i p [])) ->
  nth i (project_levels deps hmin 0 (fd :: subs) p) [] = nth i p [].
Proof.
  intros deps hmin fd subs p i H D HS. cbn [project_levels].
  destruct (C71_who_moves fd deps hmin 0 p) as (L & _ & U & _ & _). set (q := project_back fd deps hmin 0 p) in *.
  assert (nth i q [] = nth i p []) as E by (apply U; assumption). assert (i < length q)%nat as Hq by lia. rewrite <- E. clear L U D.
  assert (forall s, In s subs -> s (nth i q []) <= 0 \/ hmin * 2 / 3 <= s (nth i q [])) as HS' by (rewrite E; exact HS). clear HS E H. clearbody q. clear p.
  assert (forall l, (0 < l)%nat -> nth i (project_levels deps hmin l subs q) [] = nth i q []) as K; [|apply K; lia].
  revert q Hq HS'. induction subs as [|s subs IH]; intros q Hq HS l Hl; [reflexivity|]. cbn [project_levels].
  destruct (C71_who_moves s deps hmin l q) as (L & _ & U1 & U2 & _). set (r := project_back s deps hmin l q) in *.
  assert (nth i r [] = nth i q []) as E by (destruct (HS s (or_introl eq_refl)); [apply U1|apply U2]; assumption).
  rewrite IH; [exact E|lia| |lia]. intros s' I. rewrite E. apply HS. right. exact I.
Qed.

(** Where the signed distance is the affine function c + a.x at the points evaluated and |a|^2 is at least the step, the point
    lands exactly on the boundary, at the nearest point of the plane. *)
Theorem C71_affine_lands : forall fd c a x deps, 0 < deps -> length x = length a -> affine_near fd c a x deps -> deps <= inner a a ->
  let y := newton fd deps 1 x in
  c + inner a y = 0 /\ (fd y = c + inner a y -> fd y = 0) /\ (forall z, length z = length a -> c + inner a z = 0 -> edist x y <= edist x z).
Proof.
  intros fd c a x deps H L A G y. split; [|split].
  - unfold y. rewrite (newton_affine fd c a x deps H L A), inner_along, Rmax_right by assumption. destruct A as [-> _]. field. lra.
  - intros E. apply (newton_hits fd c a x deps H L A G). exact E.
  - intros z Lz Z. apply (newton_nearest fd c a x deps z H L Lz A G Z).
Qed.
(** Where |a|^2 is below the step the projection falls short: the fraction 1 - |a|^2/deps of the distance remains. *)
Theorem C71_small_gradient_residual : forall fd c a x deps, 0 < deps -> length x = length a -> affine_near fd c a x deps -> inner a a < deps ->
  let y := newton fd deps 1 x in
  fd y = c + inner a y -> fd y = fd x * (1 - inner a a / deps) /\ (fd x <> 0 -> fd y <> 0).
Proof.
  intros fd c a x deps H L A G y E. pose proof (newton_residual fd c a x deps H L A E) as K. rewrite Rmax_left in K by lra. split; [exact K|].
  intros N. unfold y. rewrite K. apply Rmult_integral_contrapositive_currified; [exact N|]. intros Z.
  assert (inner a a = deps); [|lra]. apply Rmult_eq_reg_r with (/ deps); [|apply Rinv_neq_0_compat; lra]. rewrite Rinv_r by lra. unfold Rdiv in Z. lra.
Qed.
(** Whatever the function: one move is at most distance / sqrt(deps) long, and a point around which the function does not
    change along the axes is left where it is although it is outside. *)
Theorem C71_step_bound : forall fd deps alpha x, 0 < deps ->
  edist x (newton fd deps alpha x) <= Rabs (alpha * fd x) / sqrt deps /\
  ((forall i, (i < length x)%nat -> fd (axis_step x i deps) = fd x) -> newton fd deps alpha x = x).
Proof. intros fd deps alpha x H. split; [apply newton_step_bound, H|apply newton_flat]. Qed.

(** The final level-set improvement moves boundary vertices only (from both sides), leaves those on the level set, and puts
    those around which the function is affine, with |a|^2 at least the step, on the level set, where they stay. *)
Theorem C71_improve : forall uniq fd deps dim p t q, improve_level_set uniq fd deps dim p t = Ok q ->
  length q = length p /\
  (forall v, (v < length p)%nat -> length (nth v q []) = length (nth v p [])) /\
  (forall v, (v < length p)%nat -> ~ In v (get_boundary_vertices uniq dim t) -> nth v q [] = nth v p []) /\
  (forall v, (v < length p)%nat -> fd (nth v p []) = 0 -> nth v q [] = nth v p []) /\
  (forall v c a, (v < length p)%nat -> In v (get_boundary_vertices uniq dim t) -> 0 < deps -> length (nth v p []) = length a ->
     (forall x, length x = length a -> fd x = c + inner a x) -> deps <= inner a a ->
     fd (nth v q []) = 0 /\ forall z, length z = length a -> fd z = 0 -> edist (nth v p []) (nth v q []) <= edist (nth v p []) z).
Proof.
  intros uniq fd deps dim p t q H. unfold improve_level_set in H. set (bid := get_boundary_vertices uniq dim t) in *. 
  assert (q = improve_loop fd deps bid (seq 0 5) 1 p) as -> by (destruct bid; [discriminate|inversion H; reflexivity]).
  destruct (improve_loop_spec fd deps bid (seq 0 5) 1 p) as (I1 & I2 & I3 & I4). repeat split.
  - exact I1.
  - exact I4.
  - exact I2.
  - intros v Hv Z. destruct (in_dec Nat.eq_dec v bid); [apply I3|apply I2]; assumption.
  - pose proof (improve_loop_first fd deps bid (seq 1 4) p v H0 H1) as F. change (0%nat :: seq 1 4) with (seq 0 5) in F.
    assert (affine_near fd c a (nth v p []) deps) as A.
    { split; [apply H4, H3|]. intros i Hi. apply H4. unfold axis_step. rewrite app_length, firstn_length. destruct (skipn i (nth v p [])) eqn:Q.
      - apply (f_equal (@length R)) in Q. rewrite skipn_length in Q. cbn in Q. lia.
      - apply (f_equal (@length R)) in Q. rewrite skipn_length in Q. cbn in Q |- *. lia. }
    destruct (C71_affine_lands fd c a (nth v p []) deps H2 H3 A H5) as (K1 & K2 & K3).
    assert (fd (newton fd deps 1 (nth v p [])) = 0) as Z by (apply K2, H4; rewrite newton_length; exact H3). rewrite F by exact Z. exact Z.
  - pose proof (improve_loop_first fd deps bid (seq 1 4) p v H0 H1) as F. change (0%nat :: seq 1 4) with (seq 0 5) in F.
    assert (affine_near fd c a (nth v p []) deps) as A.
    { split; [apply H4, H3|]. intros i Hi. apply H4. unfold axis_step. rewrite app_length, firstn_length. destruct (skipn i (nth v p [])) eqn:Q.
      - apply (f_equal (@length R)) in Q. rewrite skipn_length in Q. cbn in Q. lia.
      - apply (f_equal (@length R)) in Q. rewrite skipn_length in Q. cbn in Q |- *. lia. }
    destruct (C71_affine_lands fd c a (nth v p []) deps H2 H3 A H5) as (K1 & K2 & K3).
    assert (fd (newton fd deps 1 (nth v p [])) = 0) as Z by (apply K2, H4; rewrite newton_length; exact H3).
    intros z Lz Zz. rewrite F by exact Z. apply K3; [exact Lz|]. rewrite <- H4 by exact Lz. exact Zz.
Qed.
(** A mesh without boundary vertices (in particular an empty one) makes it fail. *)
Theorem C71_improve_fails : forall uniq fd deps dim p t,
  improve_level_set uniq fd deps dim p t = Err IndexError <-> get_boundary_vertices uniq dim t = [].
Proof. intros. unfold improve_level_set. destruct (get_boundary_vertices uniq dim t); split; intros H; try reflexivity; discriminate. Qed.

(** a half plane x <= 1 and a point outside it; a flat function *)
Example C71_case : let fd := fun x => -1 + inner [1; 0] x in
  0 < / 2 ^ 26 /\ affine_near fd (-1) [1; 0] [3; 5] (/ 2 ^ 26) /\ / 2 ^ 26 <= inner [1; 0] [1; 0] /\ 0 < fd [3; 5] /\
  newton fd (/ 2 ^ 26) 1 [3; 5] = [1; 5].
Proof.
  intros fd. assert (0 < / 2 ^ 26 <= 1) as K by (split; [apply Rinv_0_lt_compat, pow_lt; lra|rewrite <- Rinv_1; apply Rinv_le_contravar; [lra|apply pow_R1_Rle; lra]]).
  assert (affine_near fd (-1) [1; 0] [3; 5] (/ 2 ^ 26)) as A by (split; [reflexivity|intros; reflexivity]).
  split; [lra|]. split; [exact A|]. split; [cbn [inner]; lra|]. split; [unfold fd; cbn [inner]; lra|].
  rewrite (newton_affine fd (-1) [1;0] [3;5] (/ 2 ^ 26)) by (lra || reflexivity || exact A). rewrite Rmax_right by (cbn [inner]; lra).
  unfold fd. cbn [inner along]. f_equal; [field|f_equal; field].
Qed.

Print Assumptions C71_who_moves.
Print Assumptions C71_levels_untouched.
Print Assumptions C71_affine_lands.
Print Assumptions C71_small_gradient_residual.
Print Assumptions C71_step_bound.
Print Assumptions C71_improve.
Print Assumptions C71_improve_fails.
