(** C85: the points generate_mesh (one process) hands to its first triangulation.  [prepare] is everything before the loop; it
    returns the loop's parameters (g_...) and these points. *)
From Coq Require Import Reals List Arith Bool Lra Lia ZArith.
From Verif Require Import Model.Base Model.SDF Model.Mesh Model.InitGrid Model.Generator Spec.Geom Spec.Subseq.
From Verif Require Import Proofs.ListAux Proofs.MeshAux Proofs.InitGridProofs Proofs.SDFPrim Proofs.GenLoop Props.P10_grid Props.P18_generate.
Import ListNotations.
Local Open Scope R_scope.

Lemma pairs_length : forall b, length (pairs_of b) = Nat.div2 (length b).
Proof. fix IH 1. intros [|x [|y b]]; cbn; [reflexivity..|]. f_equal. apply IH. Qed.
(** with one process every kind of size gets the same grid *)
Lemma grid_points_grid : forall s b h0, Nat.div2 (length b) = 2%nat \/ Nat.div2 (length b) = 3%nat ->
  grid_points s b h0 = create_staggered_grid h0 (pairs_of b).
Proof.
  intros s b h0 D. destruct s; try reflexivity. cbn [grid_points]. rewrite <- pairs_length in D. unfold make_init_points.
  assert (forall p : R * R, local_span p 1 0 h0 = p) as E.
  { intros [lo hi]. unfold local_span, limit. cbn [fst snd INR]. f_equal; field. }
  destruct (pairs_of b) as [|b0 [|b1 [|b2 [|b3 l]]]]; cbn [length] in D; try lia; cbn [seq map Nat.eqb nth length]; rewrite E; reflexivity.
Qed.

Lemma subseq_filter {A} (f : A -> bool) l : subseq (filter f l) l.
Proof. induction l as [|x l IH]; cbn; [constructor|]. destruct (f x); constructor; exact IH. Qed.
Lemma subseq_map {A B} (f : A -> B) l m : subseq l m -> subseq (map f l) (map f m).
Proof. induction 1; cbn; constructor; assumption. Qed.
Lemma map_nth_seq {A} (l : list A) d : map (fun i => nth i l d) (seq 0 (length l)) = l.
Proof.
  induction l as [|x l IH]; [reflexivity|]. cbn [length seq map nth]. f_equal. rewrite <- seq_shift, map_map. exact IH.
Qed.
Lemma subseq_pick {A} (d : A) (f : nat -> bool) c : subseq (map (fun i => nth i c d) (filter f (seq 0 (length c)))) c.
Proof. pose proof (subseq_map (fun i => nth i c d) _ _ (subseq_filter f (seq 0 (length c)))) as H. rewrite map_nth_seq in H. exact H. Qed.
Lemma subseq_NoDup {A} (l m : list A) : subseq l m -> NoDup m -> NoDup l.
Proof.
  assert (forall l m, @subseq A l m -> incl l m) as HI.
  { induction 1; intros y Hy; [destruct Hy| |right; auto]. destruct Hy as [->|Hy]; [left; reflexivity|right; auto]. }
  induction 1 as [m|x l m H IH|x l m H IH]; intros N; [constructor| |].
  - inversion N; subst. constructor; [intros Q; apply (HI _ _ H) in Q; contradiction|auto].
  - inversion N; subst. auto.
Qed.

(** candidates: grid points that are not clearly outside *)
Definition candidates (d : dom_arg) (s : size_arg) (P : problem) : list pt :=
  filter (fun x => if Rlt_dec (g_fd P x) (g_geps P) then true else false) (create_staggered_grid (g_h0 P) (pairs_of (full_bbox d s))).
Definition is_min_size (s : size_arg) (c : list pt) (m : R) : Prop := (exists x, In x c /\ size_fh s x = m) /\ forall x, In x c -> m <= size_fh s x.

Lemma min_list_in : forall l, l <> [] -> In (min_list l) l /\ forall x, In x l -> min_list l <= x.
Proof.
  induction l as [|x l IH]; intros N; [congruence|]. destruct l as [|y l].
  - cbn. split; [left; reflexivity|]. intros z [->|[]]. lra.
  - destruct (IH ltac:(discriminate)) as (I1 & I2). change (min_list (x :: y :: l)) with (Rmin x (min_list (y :: l))). split.
    + destruct (Rle_dec x (min_list (y :: l))) as [Q|Q]; [rewrite Rmin_left by lra; left; reflexivity|rewrite Rmin_right by lra; right; exact I1].
    + intros z [->|Hz]; [apply Rmin_l|]. eapply Rle_trans; [apply Rmin_r|]. apply I2, Hz.
Qed.

Lemma prepare_initial B d s o P p : prepare B d s o = Ok (P, p) -> o_points o = None ->
  let c := candidates d s P in
  c <> [] /\ g_pfix P = o_pfix o ++ kept_corners (g_fd P) (g_deps P) (used_corners d s (g_dim P)) /\ the_h0 s o = Some (g_h0 P) /\ 0 <= g_h0 P /\
  (g_dim P = 2%nat \/ g_dim P = 3%nat) /\ g_dim P = Nat.div2 (length (full_bbox d s)) /\
  p = g_pfix P ++ map (fun i => nth i c []) (filter (fun i => Rltb (nth i (b_rand B (length c)) 0)
        (r0m_of o (g_h0 P) (map (size_fh s) c) ^ g_dim P / nth i (map (size_fh s) c) 0 ^ g_dim P)) (seq 0 (length c))).
Proof.
  unfold prepare. destruct (meshed_fd d s) as [fd|]; [|discriminate]. destruct (the_h0 s o) as [h0|]; [|discriminate].
  destruct (Rltb h0 0) eqn:E0; [discriminate|]. apply Rltb_false in E0. destruct (negb _) eqn:E; [discriminate|]. apply negb_false_iff, orb_true_iff in E. rewrite !Nat.eqb_eq in E.
  intros H HO. unfold start_points in H. rewrite HO in H. unfold initial_points in H.
  rewrite grid_points_grid in H by exact E.
  set (c0 := filter _ (create_staggered_grid h0 _)) in H.
  destruct c0 as [|x0 c1] eqn:EC; [discriminate|]. rewrite <- EC in H. cbn [rbind] in H.
  destruct (Rltb (o_max_iter o) 0); [discriminate|].
  match type of H with (match ?l with _ => _ end) = _ => destruct l as [|y l'] eqn:EL; [discriminate|] end.
  injection H as <- <-. unfold candidates; cbn [g_fd g_geps g_h0 g_pfix g_deps g_dim].
  change (filter (fun x => if Rlt_dec (fd x) (o_geps_mult o * h0) then true else false) (create_staggered_grid h0 (pairs_of (full_bbox d s)))) with c0.
  split; [rewrite EC; discriminate|]. split; [reflexivity|]. split; [reflexivity|]. split; [exact E0|]. split; [exact E|]. split; [reflexivity|].
  rewrite <- EL. reflexivity.
Qed.

(** the fixed points come first, then some of the grid points with distance < geps, in grid order, none twice *)
Theorem C85_initial_points : forall B d s o P p, prepare B d s o = Ok (P, p) -> o_points o = None ->
  exists kept, p = g_pfix P ++ kept /\ subseq kept (candidates d s P) /\ (0 < g_h0 P -> NoDup kept) /\
    g_pfix P = o_pfix o ++ filter (fun c => if Rlt_dec (- 1000 * g_deps P) (g_fd P c) then true else false) (used_corners d s (g_dim P)).
Proof.
  intros B d s o P p H HO. destruct (prepare_initial _ _ _ _ _ _ H HO) as (HC & HF & _ & _ & HD & HDe & HP).
  eexists. split; [exact HP|]. assert (forall f : nat -> bool, subseq (map (fun i => nth i (candidates d s P) []) (filter f (seq 0 (length (candidates d s P))))) (candidates d s P)) as HS.
  { intros f. apply subseq_pick. }
  split; [apply HS|]. split.
  - intros Hh. eapply subseq_NoDup; [apply HS|]. apply NoDup_filter. apply C65_no_point_twice; [|exact Hh]. rewrite pairs_length, <- HDe. exact HD.
  - rewrite HF. f_equal.
Qed.
Print Assumptions C85_initial_points.

(** which ones: those whose random number is below (r/size)^dim, r the smallest size of a candidate; in particular every
    candidate of smallest size.  r0m_is_h0 is the next theorem. *)
Theorem C85_rejection : forall B d s o P p, prepare B d s o = Ok (P, p) -> o_points o = None -> o_r0m_is_h0 o = false ->
  let c := candidates d s P in let u := b_rand B (length c) in
  exists r kept, is_min_size s c r /\ p = g_pfix P ++ kept /\
    (forall i, (i < length c)%nat -> nth i u 0 < r ^ g_dim P / size_fh s (nth i c []) ^ g_dim P -> In (nth i c []) kept) /\
    (0 < g_h0 P -> forall i, (i < length c)%nat -> In (nth i c []) kept -> nth i u 0 < r ^ g_dim P / size_fh s (nth i c []) ^ g_dim P) /\
    (0 < r -> (forall v, In v u -> 0 <= v < 1) -> length u = length c -> forall x, In x c -> size_fh s x = r -> In x kept).
Proof.
  intros B d s o P p H HO HR c u. destruct (prepare_initial _ _ _ _ _ _ H HO) as (HC & HF & _ & _ & HD & HDe & HP). fold c in HC, HP. fold u in HP.
  unfold r0m_of in HP. rewrite HR in HP. set (r := min_list (map (size_fh s) c)) in *.
  assert (map (size_fh s) c <> []) as HC' by (destruct c; [congruence|discriminate]).
  assert (is_min_size s c r) as HM.
  { destruct (min_list_in _ HC') as (M1 & M2). split.
    - apply in_map_iff in M1. destruct M1 as (x & E & Hx). exists x. split; [exact Hx|exact E].
    - intros x Hx. apply M2, in_map, Hx. }
  assert (forall i, (i < length c)%nat -> nth i (map (size_fh s) c) 0 = size_fh s (nth i c [])) as HN.
  { intros i Hi. apply nth_map'. exact Hi. }
  exists r. eexists. split; [exact HM|]. split; [exact HP|].
  assert (forall i, (i < length c)%nat -> nth i u 0 < r ^ g_dim P / size_fh s (nth i c []) ^ g_dim P ->
     In (nth i c []) (map (fun i => nth i c []) (filter (fun i => Rltb (nth i u 0) (r ^ g_dim P / nth i (map (size_fh s) c) 0 ^ g_dim P)) (seq 0 (length c))))) as HK.
  { intros i Hi Hu. apply (in_map (fun i => nth i c [])). apply filter_In. split; [apply in_seq; lia|]. rewrite HN by exact Hi. apply Rltb_true. exact Hu. }
  split; [exact HK|]. split.
  - intros Hh i Hi HI. apply in_map_iff in HI. destruct HI as (j & EJ & HJ). apply filter_In in HJ. destruct HJ as (HJ & HU). apply in_seq in HJ.
    assert (NoDup c) as ND. { apply NoDup_filter. apply C65_no_point_twice; [|exact Hh]. rewrite pairs_length, <- HDe. exact HD. }
    assert (j = i) as -> by (apply (proj1 (NoDup_nth c []) ND); [lia|lia|exact EJ]). rewrite HN in HU by exact Hi. apply Rltb_true. exact HU.
  - intros Hr HU HL x Hx HE. destruct (In_nth _ _ [] Hx) as (i & Hi & EI). rewrite <- EI. apply HK; [exact Hi|]. rewrite EI, HE.
    assert (r ^ g_dim P / r ^ g_dim P = 1) as ->. { field. apply pow_nonzero. lra. }
    apply HU. apply nth_In. lia.
Qed.
Print Assumptions C85_rejection.

(** a constant size: every grid point with distance < geps is used *)
Theorem C85_constant_size : forall B d h o P p, prepare B d (SScalar h) o = Ok (P, p) -> o_points o = None -> 0 < h ->
  (forall v, In v (b_rand B (length (candidates d (SScalar h) P))) -> 0 <= v < 1) ->
  length (b_rand B (length (candidates d (SScalar h) P))) = length (candidates d (SScalar h) P) ->
  g_h0 P = h /\ p = g_pfix P ++ candidates d (SScalar h) P.
Proof.
  intros B d h o P p H HO Hh HU HL. destruct (prepare_initial _ _ _ _ _ _ H HO) as (HC & HF & HT & _ & HD & HDe & HP).
  set (c := candidates d (SScalar h) P) in *. cbn [the_h0 size_hmin] in HT. injection HT as HT. split; [congruence|]. rewrite HP at 1. f_equal.
  transitivity (map (fun i => nth i c []) (seq 0 (length c))); [|apply map_nth_seq]. f_equal. assert (map (size_fh (SScalar h)) c = repeat h (length c)) as EM.
  { clear. induction c as [|x c IH]; [reflexivity|]. cbn in *. f_equal. exact IH. }
  assert (min_list (map (size_fh (SScalar h)) c) = h) as EMin.
  { assert (map (size_fh (SScalar h)) c <> []) as NE by (destruct c; [congruence|discriminate]). destruct (min_list_in _ NE) as (M1 & _).
    rewrite EM in M1 |- *. apply repeat_spec in M1. exact M1. }
  assert (r0m_of o (g_h0 P) (map (size_fh (SScalar h)) c) = h) as ->.
  { unfold r0m_of. rewrite EMin, <- HT. destruct (o_r0m_is_h0 o); [|reflexivity]. rewrite (proj2 (Rltb_false (11/10*h) h)) by lra. reflexivity. }
  assert (forall l, (forall i, In i l -> (i < length c)%nat) -> filter (fun i => Rltb (nth i (b_rand B (length c)) 0) (h ^ g_dim P / nth i (map (size_fh (SScalar h)) c) 0 ^ g_dim P)) l = l) as HFl.
  { induction l as [|i l IH]; intros Hl; [reflexivity|]. cbn [filter]. rewrite IH by (intros j Hj; apply Hl; right; exact Hj).
    rewrite (nth_map' (size_fh (SScalar h)) c i 0 []) by (apply Hl; left; reflexivity). cbn [size_fh].
    assert (h ^ g_dim P / h ^ g_dim P = 1) as ->. { field. apply pow_nonzero. lra. }
    rewrite (proj2 (Rltb_true _ 1)); [reflexivity|]. apply HU, nth_In. rewrite HL. apply Hl. left. reflexivity. }
  apply HFl. intros i Hi. apply in_seq in Hi. lia.
Qed.
Print Assumptions C85_constant_size.

(** with r0m_is_h0 no point is used that the default would reject (same random numbers), as long as h0 is at most every size *)
Theorem C85_r0m_is_h0_keeps_fewer : forall B d s o P p P' p',
  let o' := mkOpts (o_max_iter o) (o_perform_checks o) (o_pfix o) (o_points o) (o_delta_t o) (o_geps_mult o) (o_subdomains o) (o_mesh_improvement o) true (o_h0 o) in
  o_points o = None -> o_r0m_is_h0 o = false -> prepare B d s o = Ok (P, p) -> prepare B d s o' = Ok (P', p') ->
  (forall x, In x (candidates d s P) -> g_h0 P <= size_fh s x) -> 0 < g_h0 P ->
  P' = P /\ subseq p' p.
Proof.
  intros B d s o P p P' p' o' HO HR H H' HS Hh.
  assert (P' = P) as ->.
  { unfold prepare in H, H'. destruct (meshed_fd d s) as [fd|]; [|discriminate]. change (the_h0 s o') with (the_h0 s o) in H'.
    destruct (the_h0 s o) as [h0|]; [|discriminate]. destruct (Rltb h0 0); [discriminate|]. destruct (negb _); [discriminate|].
    destruct (start_points B s _ _ _ _ _ _ o) as [q|]; [|discriminate]. destruct (start_points B s _ _ _ _ _ _ o') as [q'|]; [|discriminate].
    cbn [rbind] in H, H'. change (o_max_iter o') with (o_max_iter o) in H'. destruct (Rltb (o_max_iter o) 0); [discriminate|].
    destruct q; [discriminate|]. destruct q'; [discriminate|]. injection H as <- <-. injection H' as <- <-. reflexivity. }
  split; [reflexivity|].
  destruct (prepare_initial _ _ _ _ _ _ H HO) as (HC & HF & HT & _ & HD & HDe & HP).
  destruct (prepare_initial _ _ _ _ _ _ H' HO) as (_ & _ & _ & _ & _ & _ & HP').
  set (c := candidates d s P) in *. rewrite HP, HP'.
  assert (map (size_fh s) c <> []) as HC' by (destruct c; [congruence|discriminate]).
  destruct (min_list_in _ HC') as (M1 & M2). set (m := min_list (map (size_fh s) c)) in *.
  assert (g_h0 P <= m) as Hm. { apply in_map_iff in M1. destruct M1 as (x & <- & Hx). apply HS, Hx. }
  assert (r0m_of o (g_h0 P) (map (size_fh s) c) = m) as -> by (unfold r0m_of; rewrite HR; reflexivity).
  assert (0 < r0m_of o' (g_h0 P) (map (size_fh s) c) <= m) as HRM.
  { unfold r0m_of. cbn [o' o_r0m_is_h0]. fold m. destruct (Rltb (11 / 10 * g_h0 P) m) eqn:E; [apply Rltb_true in E; lra|lra]. }
  set (r := r0m_of o' (g_h0 P) (map (size_fh s) c)) in *.
  assert (forall (l : list nat) (f g : nat -> bool), (forall i, In i l -> f i = true -> g i = true) -> subseq (filter f l) (filter g l)) as HSub.
  { clear. induction l as [|i l IH]; intros f g H; [constructor|]. cbn [filter]. destruct (f i) eqn:E1.
    - rewrite (H i (or_introl eq_refl) E1). constructor. apply IH. intros j Hj. apply H. right. exact Hj.
    - destruct (g i); [constructor|]; (apply IH; intros j Hj; apply H; right; exact Hj). }
  assert (forall (a : list pt) l l', subseq l l' -> subseq (a ++ l) (a ++ l')) as HApp.
  { clear. induction a; intros; [assumption|]. cbn. constructor. auto. }
  apply HApp, subseq_map, HSub. intros i Hi E. apply Rltb_true in E. apply Rltb_true. eapply Rlt_le_trans; [exact E|].
  apply in_seq in Hi. rewrite (nth_map' (size_fh s) c i 0 []) by lia.
  assert (0 < size_fh s (nth i c [])) as Hsz. { assert (g_h0 P <= size_fh s (nth i c [])) by (apply HS, nth_In; lia). lra. }
  apply Rmult_le_compat_r; [left; apply Rinv_0_lt_compat, pow_lt, Hsz|]. apply pow_incr. lra.
Qed.
Print Assumptions C85_r0m_is_h0_keeps_fewer.

(** user points are used as they are: neither the corners nor the pfix points are added to them *)
Theorem C85_user_points : forall B d s o P p pts, prepare B d s o = Ok (P, p) -> o_points o = Some pts -> p = pts.
Proof.
  intros B d s o P p pts. unfold prepare. destruct (meshed_fd d s) as [fd|]; [|discriminate]. destruct (the_h0 s o) as [h0|]; [|discriminate].
  destruct (Rltb h0 0); [discriminate|]. destruct (negb _); [discriminate|]. intros H HO. unfold start_points in H. rewrite HO in H. cbn [rbind] in H.
  destruct (Rltb (o_max_iter o) 0); [discriminate|]. destruct pts; [discriminate|]. injection H as _ <-. reflexivity.
Qed.
Print Assumptions C85_user_points.

(** without a single grid point in the domain the call fails, whatever fixed points were given *)
Theorem C85_no_grid_point : forall B d s o fd h0, o_points o = None -> meshed_fd d s = Some fd -> the_h0 s o = Some h0 -> 0 <= h0 ->
  (forall x, In x (create_staggered_grid h0 (pairs_of (full_bbox d s))) -> o_geps_mult o * h0 <= fd x) ->
  exists e, forall fuel, generate_mesh B d s o fuel = Some (Err e, 0%nat).
Proof.
  intros B d s o fd h0 HO HM HH H0 HX. unfold generate_mesh, prepare. rewrite HM, HH. rewrite (proj2 (Rltb_false h0 0)) by exact H0.
  destruct (negb _) eqn:E; [eauto|]. apply negb_false_iff, orb_true_iff in E. rewrite !Nat.eqb_eq in E.
  unfold start_points. rewrite HO. unfold initial_points. rewrite grid_points_grid by exact E.
  assert (filter (fun x => Rltb (fd x) (o_geps_mult o * h0)) (create_staggered_grid h0 (pairs_of (full_bbox d s))) = []) as ->; [|cbn [rbind]; eauto].
  induction (create_staggered_grid h0 (pairs_of (full_bbox d s))) as [|x l IH]; [reflexivity|]. cbn [filter].
  rewrite (proj2 (Rltb_false _ _)) by (apply HX; left; reflexivity). apply IH. intros y Hy. apply HX. right. exact Hy.
Qed.
Print Assumptions C85_no_grid_point.

(** constant and variable sizes on the box [0,2]x[0,1]; half is a fixed "random" number *)
Definition half_backend : backend :=
  mkBackend (fun _ p => (p, [])) (nodup key_dec) (nodup row_dec) (fun _ x => map up x) ve_pairs (fun p _ => p) (fun n => repeat (1/2) n).
Definition start_opts (m : bool) : gen_opts := mkOpts 1 false [[1/4; 1/4]] None (3 / 10) (1 / 10) None true m (Some 1).
Definition ramp (x : pt) : R := 1 + nth 0 x 0.
Lemma box_candidates : filter (fun x : pt => if Rlt_dec ((fun _ => -1) x) (1 / 10 * 1) then true else false) (create_staggered_grid 1 (pairs_of [0; 2; 0; 1])) =
  [[0;0];[0;1];[1;1/2];[1;3/2];[2;0];[2;1]].
Proof. cbn [pairs_of]. rewrite C65_case. cbn [filter]. destruct (Rlt_dec (-1) (1 / 10 * 1)); [reflexivity|lra]. Qed.
Example C85_case : (exists P, prepare half_backend (DFunction (fun _ => -1) [0; 2; 0; 1]) (SScalar 1) (start_opts false) =
    Ok (P, [[1/4; 1/4]; [0;0];[0;1];[1;1/2];[1;3/2];[2;0];[2;1]]) /\ g_h0 P = 1) /\
  (exists P, prepare half_backend (DFunction (fun _ => -1) [0; 2; 0; 1]) (SFunction ramp) (start_opts false) =
    Ok (P, [[1/4; 1/4]; [0;0];[0;1]]) /\ forall x, In x (candidates (DFunction (fun _ => -1) [0; 2; 0; 1]) (SFunction ramp) P) -> g_h0 P <= ramp x) /\
  (exists P, prepare half_backend (DFunction (fun _ => -1) [0; 2; 0; 1]) (SFunction ramp) (start_opts true) = Ok (P, [[1/4; 1/4]; [0;0];[0;1]])).
Proof.
  assert (forall s b, s = SScalar 1 \/ s = SFunction ramp ->
    exists P, g_h0 P = 1 /\ candidates (DFunction (fun _ => -1) [0; 2; 0; 1]) s P = [[0;0];[0;1];[1;1/2];[1;3/2];[2;0];[2;1]] /\
    let r0 := map (size_fh s) [[0;0];[0;1];[1;1/2];[1;3/2];[2;0];[2;1]] in
    prepare half_backend (DFunction (fun _ => -1) [0; 2; 0; 1]) s (start_opts b) = Ok (P, [1/4; 1/4] ::
      map (fun i => nth i [[0;0];[0;1];[1;1/2];[1;3/2];[2;0];[2;1]] []) (filter (fun i => Rltb (nth i (repeat (1/2) 6) 0) (r0m_of (start_opts b) 1 r0 ^ 2 / nth i r0 0 ^ 2)) (seq 0 6)))) as H.
  { intros s b Hs. unfold prepare, meshed_fd. replace (size_bbox s) with (@None (list R)) by (destruct Hs as [-> | ->]; reflexivity).
    replace (the_h0 s (start_opts b)) with (Some 1) by (destruct Hs as [-> | ->]; reflexivity).
    replace (full_bbox (DFunction (fun _ => -1) [0; 2; 0; 1]) s) with [0; 2; 0; 1] by (destruct Hs as [-> | ->]; reflexivity).
    rewrite (proj2 (Rltb_false 1 0)) by lra. cbn [length Nat.div2 Nat.eqb orb negb start_points start_opts o_points o_geps_mult dom_fd]. unfold initial_points.
    rewrite grid_points_grid by (left; reflexivity).
    match goal with |- context [filter ?f ?l] => assert (filter f l = [[0;0];[0;1];[1;1/2];[1;3/2];[2;0];[2;1]]) as EQ by exact box_candidates; rewrite EQ; clear EQ end.
    cbn [rbind o_max_iter start_opts]. rewrite (proj2 (Rltb_false 1 0)) by lra.
    replace (fixed_points (DFunction (fun _ => -1) [0; 2; 0; 1]) s 2 (fun _ => -1) (deps_of 1) (start_opts b)) with [[1/4; 1/4]] by (destruct Hs as [-> | ->]; reflexivity).
    cbn [app]. eexists. split; [|split; [|reflexivity]]; [reflexivity|]. unfold candidates. cbn [g_fd g_geps g_h0 start_opts o_geps_mult].
    replace (full_bbox (DFunction (fun _ => -1) [0; 2; 0; 1]) s) with [0; 2; 0; 1] by (destruct Hs as [-> | ->]; reflexivity). exact box_candidates. }
  assert (forall m r, m = r -> 0 < r -> Rltb (1/2) (m ^ 2 / r ^ 2) = true) as T1.
  { intros m r -> Hr. apply Rltb_true. replace (r ^ 2 / r ^ 2) with 1; [lra|field; lra]. }
  split; [|split].
  - destruct (H (SScalar 1) false (or_introl eq_refl)) as (P & HP & _ & E). exists P. split; [|exact HP]. rewrite E. cbn [map size_fh repeat seq filter nth].
    assert (r0m_of (start_opts false) 1 [1; 1; 1; 1; 1; 1] = 1) as ->. { unfold r0m_of. cbn [start_opts o_r0m_is_h0 min_list]. unfold Rmin. repeat destruct Rle_dec; lra. }
    rewrite !T1 by lra. reflexivity.
  - destruct (H (SFunction ramp) false (or_intror eq_refl)) as (P & HP & HC & E). exists P. split.
    + rewrite E. unfold ramp. cbn [map size_fh repeat seq filter nth].
      assert (r0m_of (start_opts false) 1 [1 + 0; 1 + 0; 1 + 1; 1 + 1; 1 + 2; 1 + 2] = 1) as ->. { unfold r0m_of. cbn [start_opts o_r0m_is_h0 min_list]. unfold Rmin. repeat destruct Rle_dec; lra. }
      rewrite (T1 1 (1 + 0)) by lra. rewrite (proj2 (Rltb_false (1/2) (1 ^ 2 / (1 + 1) ^ 2))) by lra. rewrite (proj2 (Rltb_false (1/2) (1 ^ 2 / (1 + 2) ^ 2))) by lra. reflexivity.
    + rewrite HC, HP. unfold ramp. intros x Hx. cbn in Hx. decompose [or] Hx; subst; cbn [nth]; try lra; contradiction.
  - destruct (H (SFunction ramp) true (or_intror eq_refl)) as (P & HP & HC & E). exists P. rewrite E. unfold ramp. cbn [map size_fh repeat seq filter nth].
    assert (r0m_of (start_opts true) 1 [1 + 0; 1 + 0; 1 + 1; 1 + 1; 1 + 2; 1 + 2] = 1) as ->.
    { unfold r0m_of. cbn [start_opts o_r0m_is_h0 min_list]. rewrite (proj2 (Rltb_false _ _)); [reflexivity|]. unfold Rmin. repeat destruct Rle_dec; lra. }
    rewrite (T1 1 (1 + 0)) by lra. rewrite (proj2 (Rltb_false (1/2) (1 ^ 2 / (1 + 1) ^ 2))) by lra. rewrite (proj2 (Rltb_false (1/2) (1 ^ 2 / (1 + 2) ^ 2))) by lra. reflexivity.
Qed.
