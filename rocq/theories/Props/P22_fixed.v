(** C86: fixed points and corners during the iterations of generate_mesh (one process), and what happens to them at the end. *)
From Coq Require Import Reals List Arith Bool Lra Lia Permutation ZArith.
From Verif Require Import Model.Base Model.SDF Model.Mesh Model.Formulas Model.Laplace Model.Forces Model.Newton Model.Generator Spec.MeshTopo Spec.Bars.
From Verif Require Import Proofs.ListAux Proofs.MeshAux Proofs.ForceProofs Proofs.NewtonProofs Proofs.LaplaceProofs Proofs.GenLoop Proofs.InitRanks.
From Verif Require Import Proofs.FixMeshProofs Props.P16_forces Props.P17_newton Props.P18_generate Props.P21_start.
Import ListNotations.
Local Open Scope R_scope.

(** Vertices and cells of the k-th triangulation of a run started from p0: each iteration discards outside cells, moves the
    points, projects them and triangulates anew. *)
Inductive triangulated (B : backend) (P : problem) (p0 : list pt) : nat -> list pt -> list row -> Prop :=
| tri_first p t : b_tri B 0 p0 = (p, t) -> triangulated B P p0 0 p t
| tri_next k p t p' t' : triangulated B P p0 k p t ->
    b_tri B (S k) (next_points P p (remove_outside (g_dim P) (g_fd P) (g_geps P) p t)) = (p', t') -> triangulated B P p0 (S k) p' t'.
(** the triangulation has the points it is given as vertices (CGAL, distinct points) *)
Definition faithful_tri (B : backend) : Prop := forall k p x, In x (fst (b_tri B k p)) <-> In x p.
(** a point no projection moves: inside the domain, and inside or clearly outside of every subdomain *)
Definition unprojected (P : problem) (x : pt) : Prop :=
  g_fd P x <= 0 /\ forall l s, g_subs P = Some l -> In s l -> s x <= 0 \/ g_h0 P * 2 / 3 <= s x.
(** squared distance of two points *)
Definition dsq (dim : nat) (x y : pt) : R := total (map (fun j => (nth j x 0 - nth j y 0) ^ 2) (seq 0 dim)).

Lemma sq2_dsq : forall x y, length x = length y -> sq2 x y = dsq (length x) x y.
Proof.
  unfold sq2, dsq, rtotal, total, map2. induction x as [|a x IH]; intros [|b y] L; try discriminate; [reflexivity|].
  cbn [combine map fst snd fold_right length seq nth]. rewrite IH by (cbn in L; lia). rewrite <- seq_shift, map_map. f_equal. ring.
Qed.
Lemma dsq_nonneg : forall dim x y, 0 <= dsq dim x y.
Proof.
  intros dim x y. unfold dsq, total. induction (seq 0 dim) as [|j l IH]; cbn [map fold_right]; [lra|]. pose proof (pow2_ge_0 (nth j x 0 - nth j y 0)). lra.
Qed.
Lemma dsq_zero : forall dim x y, length x = dim -> length y = dim -> dsq dim x y <= 0 -> x = y.
Proof.
  intros dim x y Lx Ly H. apply (nth_ext _ _ 0 0); [congruence|]. intros j Hj. rewrite Lx in Hj.
  assert (forall l, In j l -> (nth j x 0 - nth j y 0) ^ 2 <= total (map (fun j => (nth j x 0 - nth j y 0) ^ 2) l)) as K.
  { unfold total. induction l as [|i l IH]; intros I; [destruct I|]. cbn [map fold_right].
    assert (0 <= fold_right Rplus 0 (map (fun j => (nth j x 0 - nth j y 0) ^ 2) l)) as N.
    { clear. induction l as [|i l IH]; cbn [map fold_right]; [lra|]. pose proof (pow2_ge_0 (nth i x 0 - nth i y 0)). lra. }
    destruct I as [->|I]; [lra|]. specialize (IH I). pose proof (pow2_ge_0 (nth i x 0 - nth i y 0)). lra. }
  specialize (K (seq 0 dim) ltac:(apply in_seq; lia)). unfold dsq in H. pose proof (pow2_ge_0 (nth j x 0 - nth j y 0)) as G.
  assert ((nth j x 0 - nth j y 0) ^ 2 = 0) as Z by lra. cbn in Z. rewrite Rmult_1_r in Z. apply Rmult_integral in Z. lra.
Qed.
Lemma dsq_refl : forall dim x, dsq dim x x = 0.
Proof. intros. unfold dsq, total. induction (seq 0 dim) as [|j l IH]; cbn [map fold_right]; [reflexivity|]. rewrite IH. ring. Qed.

Lemma closest_dsq : forall dim f p, length f = dim -> Forall (fun x => length x = dim) p -> p <> [] ->
  (closest_node f p < length p)%nat /\ forall x, In x p -> dsq dim (nth (closest_node f p) p []) f <= dsq dim x f.
Proof.
  intros dim f p Lf HP NE. rewrite Forall_forall in HP. unfold closest_node. set (ds := map (fun r => sq2 r f) p).
  assert (ds <> []) as ND by (unfold ds; destruct p; [congruence|discriminate]).
  destruct (argmin_spec ds ND) as (A & C & _). assert (length ds = length p) as LD by apply map_length. rewrite LD in *.
  split; [exact A|]. intros x Hx. destruct (In_nth _ _ [] Hx) as (k & Hk & E). specialize (C k Hk).
  assert (forall i, (i < length p)%nat -> nth i ds 0 = dsq dim (nth i p []) f) as G.
  { intros i Hi. unfold ds. rewrite (nth_map' (A:=list R) (B:=R) _ _ _ 0 []) by exact Hi.
    assert (length (nth i p []) = dim) as Li by (apply HP, nth_In, Hi). rewrite sq2_dsq by congruence. rewrite Li. reflexivity. }
  rewrite !G in C by assumption. rewrite <- E. exact C.
Qed.

(** ---- one iteration ---- *)
Lemma levels_dim : forall deps hmin levels idx dim p, Forall (fun x => length x = dim) p ->
  Forall (fun x => length x = dim) (project_levels deps hmin idx levels p) /\ length (project_levels deps hmin idx levels p) = length p.
Proof.
  intros deps hmin levels. induction levels as [|fd ls IH]; intros idx dim p HP; [split; [exact HP|reflexivity]|]. cbn [project_levels].
  destruct (IH (S idx) dim (project_back fd deps hmin idx p)) as (I1 & I2).
  - unfold project_back. apply Forall_forall. intros x Hx. apply in_map_iff in Hx. destruct Hx as (y & <- & Hy).
    rewrite Forall_forall in HP. destruct (outside_band _ _ _); [rewrite newton_length|]; apply HP, Hy.
  - split; [exact I1|]. rewrite I2. unfold project_back. apply map_length.
Qed.
Lemma next_dim : forall P p t, Forall (fun x => length x = g_dim P) p ->
  Forall (fun x => length x = g_dim P) (next_points P p t) /\ length (next_points P p t) = length p.
Proof.
  intros P p t HP. unfold next_points. destruct (C70_force_step (g_dim P) p t (g_fh P) (L0mult (g_dim P)) (g_delta_t P) (ifix_of P p) HP) as (L & HD & _).
  destruct (levels_dim (g_deps P) (g_h0 P) (g_fd P :: match g_subs P with Some l => l | None => [] end) 0 _ _ HD) as (A & C).
  split; [exact A|]. rewrite C. exact L.
Qed.

(** The vertex nearest to a fixed point (the first of the nearest ones) does not move if no projection moves it. *)
Theorem C86_one_iteration : forall P p t f, Forall (fun x => length x = g_dim P) p -> p <> [] -> In f (g_pfix P) -> length f = g_dim P ->
  exists v, (v < length p)%nat /\ (forall x, In x p -> dsq (g_dim P) (nth v p []) f <= dsq (g_dim P) x f) /\
    (unprojected P (nth v p []) -> nth v (next_points P p t) [] = nth v p []).
Proof.
  intros P p t f HP NE If Lf. destruct (closest_dsq (g_dim P) f p Lf HP NE) as (Hv & Hn). set (v := closest_node f p) in *.
  exists v. split; [exact Hv|]. split; [exact Hn|]. intros (U1 & U2). unfold next_points.
  destruct (C70_force_step (g_dim P) p t (g_fh P) (L0mult (g_dim P)) (g_delta_t P) (ifix_of P p) HP) as (L & _ & HF & _).
  assert (nth v (force_step (g_dim P) (g_fh P) (L0mult (g_dim P)) (g_delta_t P) (ifix_of P p) p t) [] = nth v p []) as E.
  { apply HF; [exact Hv|]. unfold ifix_of, v. apply (in_map (fun f => closest_node f p)). exact If. }
  rewrite <- E. rewrite <- E in U1, U2. apply C71_levels_untouched; [lia|exact U1|].
  intros s Is. destruct (g_subs P) as [l|]; [exact (U2 l s eq_refl Is)|destruct Is].
Qed.
Print Assumptions C86_one_iteration.

Lemma tri_nonempty : forall B k p x, faithful_tri B -> In x p -> fst (b_tri B k p) <> [].
Proof. intros B k p x HF Hx Q. apply (HF k p) in Hx. rewrite Q in Hx. exact Hx. Qed.
Lemma tri_dim : forall B P p0, faithful_tri B -> Forall (fun x => length x = g_dim P) p0 ->
  forall k p t, triangulated B P p0 k p t -> Forall (fun x => length x = g_dim P) p.
Proof.
  intros B P p0 HF HP k p t H. induction H as [p t E|k p t p' t' H IH E].
  - apply Forall_forall. intros x Hx. rewrite Forall_forall in HP. apply HP, (HF 0%nat p0). rewrite E. exact Hx.
  - destruct (next_dim P p (remove_outside (g_dim P) (g_fd P) (g_geps P) p t) IH) as (N & _). rewrite Forall_forall in N.
    apply Forall_forall. intros x Hx. apply N. apply (HF (S k) (next_points P p (remove_outside (g_dim P) (g_fd P) (g_geps P) p t))). rewrite E. exact Hx.
Qed.

(** A fixed point that is among the starting points and that no projection moves is a vertex of every triangulation of the run. *)
Theorem C86_fixed_points_stay : forall B P p0 f, faithful_tri B -> Forall (fun x => length x = g_dim P) p0 ->
  In f (g_pfix P) -> In f p0 -> unprojected P f ->
  forall k p t, triangulated B P p0 k p t -> In f p.
Proof.
  intros B P p0 f HF HP If I0 HU k p t H. pose proof (tri_dim B P p0 HF HP) as HD.
  assert (length f = g_dim P) as Lf by (rewrite Forall_forall in HP; apply HP, I0).
  induction H as [p t E|k p t p' t' H IH E].
  - assert (In f (fst (b_tri B 0 p0))) as Q by (apply HF, I0). rewrite E in Q. exact Q.
  - set (t1 := remove_outside (g_dim P) (g_fd P) (g_geps P) p t) in *.
    destruct (C86_one_iteration P p t1 f (HD _ _ _ H) ltac:(intros ->; destruct IH) If Lf) as (v & Hv & Hn & HK).
    assert (nth v p [] = f) as Ev.
    { apply (dsq_zero (g_dim P)); [|exact Lf|rewrite <- (dsq_refl (g_dim P) f); apply Hn, IH]. pose proof (HD _ _ _ H) as Q. rewrite Forall_forall in Q. apply Q, nth_In, Hv. }
    rewrite Ev in HK. specialize (HK HU).
    assert (In f (fst (b_tri B (S k) (next_points P p t1)))) as Q.
    { apply HF. rewrite <- HK. apply nth_In. rewrite (proj2 (next_dim P p t1 (HD _ _ _ H))). exact Hv. }
    rewrite E in Q. exact Q.
Qed.
Print Assumptions C86_fixed_points_stay.

(** With user-supplied points that do not contain the fixed point: a vertex nearest to it that no projection moves is kept as
    it is, and at every later iteration some vertex at most that far away is. *)
Theorem C86_nearest_vertex_stays : forall B P p0 f, faithful_tri B -> Forall (fun x => length x = g_dim P) p0 -> p0 <> [] ->
  In f (g_pfix P) -> length f = g_dim P -> (forall x, unprojected P x) ->
  forall k p t, triangulated B P p0 k p t -> exists v, In v p /\ forall x, In x p0 -> dsq (g_dim P) v f <= dsq (g_dim P) x f.
Proof.
  intros B P p0 f HF HP NE If Lf HU k p t H. pose proof (tri_dim B P p0 HF HP) as HD.
  induction H as [p t E|k p t p' t' H IH E].
  - destruct (closest_dsq (g_dim P) f p0 Lf HP NE) as (Hv & Hn). exists (nth (closest_node f p0) p0 []). split; [|exact Hn].
    assert (In (nth (closest_node f p0) p0 []) (fst (b_tri B 0 p0))) as Q by (apply HF, nth_In, Hv). rewrite E in Q. exact Q.
  - destruct IH as (w & Hw & Hn). set (t1 := remove_outside (g_dim P) (g_fd P) (g_geps P) p t) in *.
    destruct (C86_one_iteration P p t1 f (HD _ _ _ H) ltac:(intros ->; destruct Hw) If Lf) as (v & Hv & Hn' & HK). specialize (HK (HU _)).
    exists (nth v p []). split.
    + assert (In (nth v p []) (fst (b_tri B (S k) (next_points P p t1)))) as Q.
      { apply HF. rewrite <- HK. apply nth_In. rewrite (proj2 (next_dim P p t1 (HD _ _ _ H))). exact Hv. }
      rewrite E in Q. exact Q.
    + intros x Hx. specialize (Hn x Hx). specialize (Hn' w Hw). lra.
Qed.
Print Assumptions C86_nearest_vertex_stays.

(** ---- the run of generate_mesh ---- *)
(** The mesh returned after k triangulations is made from the last one. *)
Theorem C86_last_triangulation : forall B d s o fuel out k, generate_mesh B d s o fuel = Some (Ok out, k) ->
  exists P p0 k' p t, prepare B d s o = Ok (P, p0) /\ k = S k' /\ triangulated B P p0 k' p t /\
    finish B P p (remove_outside (g_dim P) (g_fd P) (g_geps P) p t) = Ok out.
Proof.
  intros B d s o fuel out k H. unfold generate_mesh in H. destruct (prepare B d s o) as [[P p0]|e] eqn:E; [|discriminate]. clear E.
  exists P, p0.
  assert (forall fuel count q, mesh_loop B P fuel count q = Some (Ok out, k) ->
     (forall p t, b_tri B count q = (p, t) -> triangulated B P p0 count p t) ->
     exists k' p t, k = S k' /\ triangulated B P p0 k' p t /\ finish B P p (remove_outside (g_dim P) (g_fd P) (g_geps P) p t) = Ok out) as K.
  { clear. induction fuel as [|fuel IH]; intros count q H HT; [discriminate|]. cbn [mesh_loop] in H.
    destruct (b_tri B count q) as [p t] eqn:E. specialize (HT p t eq_refl). destruct p as [|x p]; [discriminate|].
    destruct (Reqb (INR count) (g_max_iter P - 1)).
    - injection H as H <-. exists count. do 2 eexists. split; [reflexivity|]. split; [exact HT|exact H].
    - match type of H with (if ?b then _ else _) = _ => destruct b end; [|discriminate]. apply (IH _ _ H).
      intros p' t' E'. eapply tri_next; eassumption. }
  destruct (K fuel 0%nat p0 H) as (k' & p & t & A & C & D); [intros p t E; constructor; exact E|]. exists k', p, t. auto.
Qed.
Print Assumptions C86_last_triangulation.

Lemma grid_dim : forall s bbox h0 q, Nat.div2 (length bbox) = 2%nat \/ Nat.div2 (length bbox) = 3%nat -> In q (grid_points s bbox h0) -> length q = Nat.div2 (length bbox).
Proof.
  intros s bbox h0 q D H. rewrite grid_points_grid in H by exact D. rewrite <- (pairs_length bbox) in D |- *. apply (in_grid h0 (pairs_of bbox) q D) in H.
  destruct H as (js & _ & L & _). exact L.
Qed.
(** In a call without user points the fixed points (pfix and the corners) are among the starting points, so those that no
    projection moves are vertices of the triangulation the returned mesh is made from. *)
Theorem C86_generate_mesh : forall B d s o fuel out k, faithful_tri B -> o_points o = None -> generate_mesh B d s o fuel = Some (Ok out, k) ->
  exists P p0 p t, prepare B d s o = Ok (P, p0) /\ triangulated B P p0 (k - 1) p t /\
    finish B P p (remove_outside (g_dim P) (g_fd P) (g_geps P) p t) = Ok out /\
    (forall f, In f (o_pfix o) -> In f (g_pfix P)) /\
    (Forall (fun x => length x = g_dim P) (g_pfix P) -> forall f, In f (g_pfix P) -> unprojected P f -> In f p).
Proof.
  intros B d s o fuel out k HF HO H. destruct (C86_last_triangulation _ _ _ _ _ _ _ H) as (P & p0 & k' & p & t & HP & -> & HT & HE).
  exists P, p0, p, t. split; [exact HP|]. split; [replace (S k' - 1)%nat with k' by lia; exact HT|]. split; [exact HE|].
  destruct (prepare_initial _ _ _ _ _ _ HP HO) as (HC & HFx & _ & _ & HDm & HDe & Hp). split.
  - intros f Hf. rewrite HFx. apply in_or_app. left. exact Hf.
  - intros HD f Hf HU. refine (C86_fixed_points_stay B P p0 f HF _ Hf _ HU _ _ _ HT).
    + rewrite Hp. apply Forall_app. split; [exact HD|]. apply Forall_forall. intros x Hx. apply in_map_iff in Hx. destruct Hx as (i & <- & Hi).
      apply filter_In in Hi. destruct Hi as (Hi & _). apply in_seq in Hi. assert (In (nth i (candidates d s P) []) (candidates d s P)) as I by (apply nth_In; lia).
      set (x := nth i (candidates d s P) []) in *. clearbody x. unfold candidates in I. apply filter_In in I. destruct I as (I & _). rewrite HDe. rewrite HDe in HDm.
      rewrite <- (grid_points_grid s) in I by exact HDm. exact (grid_dim _ _ _ _ HDm I).
    + rewrite Hp. apply in_or_app. left. exact Hf.
Qed.
Print Assumptions C86_generate_mesh.

(** ---- the last stage ---- *)
(** It knows nothing of the fixed points: merging, deletion of unused vertices, quality clean-up, smoothing and level-set
    improvement are the same whatever the fixed points are. *)
Definition with_fixed (P : problem) (l : list pt) : problem :=
  mkProblem (g_dim P) (g_fd P) (g_fh P) (g_h0 P) (g_deps P) (g_geps P) (g_delta_t P) l (g_subs P) (g_max_iter P) (g_checks P) (g_improve P).
Theorem C86_last_stage_ignores_fixed : forall B P l p t, finish B (with_fixed P l) p t = finish B P p t.
Proof. reflexivity. Qed.
Print Assumptions C86_last_stage_ignores_fixed.

Lemma run_fix_used : forall B p t p' t', good_backend B -> run_fix B p t = Ok (p', t') ->
  (forall x y, In x p -> In y p -> b_key B p x = b_key B p y -> x = y) ->
  forall x r v, In r t -> In v r -> nth v p [] = x -> In x p'.
Proof.
  intros B p t p' t' [HK HR] H INJ x r v Ir Iv E. unfold run_fix in H. destruct (fix_mesh _ _ _ _ _ _ _) as [[[p1 t1] jx]|] eqn:EF; [|discriminate]. injection H as -> ->.
  pose proof (fix_mesh_valid _ _ _ _ _ _ _ _ EF) as VV. destruct (fix_mesh_clean _ _ _ HK HR _ _ VV _ _ _ _ _ EF) as [[A C D F G I] U].
  destruct (F r Ir) as (r' & Ir' & PM). unfold row_keys in PM.
  assert (In (b_key B p x) (map (fun v => b_key B p (nth v p [])) r)) as Q by (rewrite <- E; apply (in_map (fun v => b_key B p (nth v p []))); exact Iv).
  apply (Permutation_in _ (Permutation_sym PM)) in Q. apply in_map_iff in Q. destruct Q as (v' & EK & Iv').
  assert (In (nth v' p' []) p') as I1 by (apply nth_In, (A r' v' Ir' Iv')).
  rewrite <- (INJ (nth v' p' []) x); [exact I1|apply C, I1| |exact EK]. rewrite <- E. apply nth_In. apply (proj1 (valid_rows_spec _ _) VV r v Ir Iv).
Qed.
(** In 3D without the final checks (the default): a vertex of the last triangulation is in the returned mesh if it is a corner
    of a cell kept (centre at distance below -geps) and lies exactly on the level set. *)
Theorem C86_on_the_boundary_kept_3d : forall B P p t p' t' x r v, good_backend B -> g_dim P = 3%nat -> g_checks P = false ->
  (forall x y, In x p -> In y p -> b_key B p x = b_key B p y -> x = y) ->
  finish B P p (remove_outside (g_dim P) (g_fd P) (g_geps P) p t) = Ok (p', t') ->
  In r t -> In v r -> nth v p [] = x -> g_fd P (cell_centre (g_dim P) p r) < - g_geps P -> g_fd P x = 0 -> In x p'.
Proof.
  intros B P p t p' t' x r v HB HD HC INJ H Ir Iv Ex HG HZ. unfold finish, termination in H. rewrite HC in H.
  assert ((g_dim P =? 2)%nat = false) as ED by (rewrite HD; reflexivity). rewrite ED in H. cbn [rbind fst snd] in H.
  destruct (run_fix B p (remove_outside (g_dim P) (g_fd P) (g_geps P) p t)) as [[p1 t1]|] eqn:EF; [|discriminate]. cbn [rbind fst snd] in H.
  assert (In x p1) as I1.
  { eapply (run_fix_used B _ _ _ _ HB EF INJ x r v); [|exact Iv|exact Ex]. unfold remove_outside. apply filter_In. split; [exact Ir|].
    apply Rltb_true. rewrite centroid_centre. exact HG. }
  destruct (improve_level_set _ _ _ _ p1 t1) as [p2|] eqn:EI; [|discriminate]. cbn [rbind] in H. injection H as <- _.
  unfold improve_level_set in EI. destruct (get_boundary_vertices _ _ _) as [|b bid]; [discriminate|]. injection EI as <-.
  destruct (improve_loop_spec (g_fd P) (g_deps P) (b :: bid) (seq 0 5) 1 p1) as (L & J1 & J2 & _).
  destruct (In_nth _ _ [] I1) as (i & Hi & Ei). rewrite <- Ei.
  assert (nth i (improve_loop (g_fd P) (g_deps P) (b :: bid) (seq 0 5) 1 p1) [] = nth i p1 []) as EQ.
  { destruct (in_dec Nat.eq_dec i (b :: bid)) as [I|I]; [apply J2; [exact Hi|exact I|rewrite Ei; exact HZ]|apply J1; assumption]. }
  assert (i < length (improve_loop (g_fd P) (g_deps P) (b :: bid) (seq 0 5) 1 p1))%nat as Hi2 by (rewrite L; exact Hi). rewrite <- EQ. exact (nth_In _ [] Hi2).
Qed.
Print Assumptions C86_on_the_boundary_kept_3d.

(** ---- what fails ---- *)
(** A fixed point outside the domain is pulled back onto the boundary after the first iteration. *)
Definition still_backend : backend :=
  mkBackend (fun _ p => (p, [])) (nodup key_dec) (nodup row_dec) (fun _ x => map up x) ve_pairs (fun p _ => p) (fun n => repeat 0 n).
Definition half_plane : problem := mkProblem 2 (fun x => nth 0 x 0 - 1) (fun _ => 1) 1 (/ 4) (1 / 10) (3 / 10) [[2; 0]] None 2 false true.
Theorem C86_outside_refuted : faithful_tri still_backend /\ In [2; 0] (g_pfix half_plane) /\
  triangulated still_backend half_plane [[2; 0]; [0; 0]] 0 [[2; 0]; [0; 0]] [] /\
  triangulated still_backend half_plane [[2; 0]; [0; 0]] 1 [[1; 0]; [0; 0]] [].
Proof.
  split; [intros k p x; reflexivity|]. split; [left; reflexivity|]. split; [constructor; reflexivity|].
  apply (tri_next _ _ _ 0 [[2; 0]; [0; 0]] []); [constructor; reflexivity|].
  assert (next_points half_plane [[2; 0]; [0; 0]] [] = [[1; 0]; [0; 0]]) as E; [|unfold remove_outside; cbn [filter]; rewrite E; reflexivity].
  unfold next_points. cbn [half_plane g_subs g_deps g_h0 g_fd g_dim g_fh g_delta_t]. cbn [project_levels].
  assert (force_step 2 (fun _ => 1) (L0mult 2) (3 / 10) (ifix_of half_plane [[2; 0]; [0; 0]]) [[2; 0]; [0; 0]] [] = [[2; 0]; [0; 0]]) as ->.
  { unfold force_step, zero_rows, compute_forces. change (bars 2 []) with (@nil (nat * nat)). cbn [length seq map]. cbn [nth].
    unfold rtotal. cbn [fold_right]. do 2 destruct (existsb _ _); unfold move_points, map2; cbn [combine map fst snd]; repeat (f_equal; try ring). }
  unfold project_back. cbn [map nth outside_band Nat.eqb].
  rewrite (proj2 (Rltb_true 0 (2 - 1))) by lra. rewrite (proj2 (Rltb_false 0 (0 - 1))) by lra.
  assert (newton (fun x => nth 0 x 0 - 1) (/ 4) 1 [2; 0] = [1; 0]) as ->; [|reflexivity].
  unfold newton.
  assert (dgrads (fun x => nth 0 x 0 - 1) (/ 4) [2; 0] = [1; 0]) as ->.
  { unfold dgrads, deps_vec, map2. cbn [length seq map combine fst snd nth Nat.eqb]. f_equal; [field|f_equal; field]. }
  assert (dgrad2 (/ 4) [1; 0] = 1) as ->.
  { unfold dgrad2, rtotal. cbn [map fold_right]. rewrite (proj2 (Rltb_false _ _)) by lra. ring. }
  unfold map2. cbn [combine map fst snd nth]. f_equal; [field|f_equal; field].
Qed.
Print Assumptions C86_outside_refuted.
(** A fixed point whose cells all have their centres outside is not in the returned mesh although it lies on the level set. *)
Definition two_fd (x : list R) : R :=
  let s := nth 0 x 0 + nth 1 x 0 + nth 2 x 0 in if Req_EM_T s (3 / 4) then -1 else if Req_EM_T s (3 / 2) then 1 else 0.
Definition five_fixed : gen_opts := mkOpts 1 false [[1;1;1]] (Some five) (3 / 10) 0 None true false None.
Definition four : list (list R) := [[0;0;0];[1;0;0];[0;1;0];[0;0;1]].
Lemma four_fix : run_fix five_backend five [[0;1;2;3]%nat] = Ok (four, map (orient four) [[0;1;2;3]%nat]).
Proof.
  unfold run_fix, fix_mesh.
  cbn [b_uniqK b_uniqR b_key five_backend five map find_pos]. rewrite !up_0, !up_1. fold five.
  match goal with |- context [nodup key_dec ?l] => let v := eval vm_compute in (nodup key_dec l) in change (nodup key_dec l) with v end.
  vm_compute. reflexivity.
Qed.
Theorem C86_lost_at_the_end_refuted : exists p t, good_backend five_backend /\ In [1;1;1] five /\ In [1;1;1] (o_pfix five_fixed) /\ two_fd [1;1;1] = 0 /\
  generate_mesh five_backend (DFunction two_fd [0; 1; 0; 1; 0; 1]) (SScalar 1) five_fixed 1 = Some (Ok (p, t), 1%nat) /\ t <> [] /\ ~ In [1;1;1] p.
Proof.
  exists four, [orient four [0;1;2;3]%nat]. split; [split; apply nodup_uniq_ok|]. split; [unfold five; cbn; tauto|]. split; [left; reflexivity|].
  split; [unfold two_fd; cbn [nth]; destruct (Req_EM_T _ _); [lra|]; destruct (Req_EM_T _ _); [lra|reflexivity]|]. split; [|split; [discriminate|]].
  - unfold generate_mesh, prepare. cbn [meshed_fd size_bbox dom_fd full_bbox dom_bbox length Nat.div2 Nat.eqb orb negb the_h0 size_hmin start_points five_fixed o_points o_max_iter rbind].
    rewrite (proj2 (Rltb_false 1 0)) by lra. cbn [orb negb].
    set (P := mkProblem _ _ _ _ _ _ _ _ _ _ _ _). assert (g_dim P = 3%nat /\ g_fd P = two_fd /\ g_h0 P = 1 /\ g_geps P = 0 * 1 /\ g_max_iter P = 1 /\ g_checks P = false) as (D & F & H0 & G & M & CH) by (repeat split).
    clearbody P. unfold five. fold five. cbn [mesh_loop five_backend b_tri]. fold five_backend. unfold five at 1. cbv iota. fold five.
    rewrite M. rewrite (proj2 (Reqb_true _ _)) by (cbn [INR]; lra). unfold finish, termination.
    destruct five_centres as [C1 C2].
    assert (two_fd [1/4;1/4;1/4] = -1 /\ two_fd [1/2;1/2;1/2] = 1) as [D1 D2].
    { unfold two_fd. cbn [nth]. split; [destruct (Req_EM_T _ _); [reflexivity|lra]|]. destruct (Req_EM_T _ _); [lra|]. destruct (Req_EM_T _ _); [reflexivity|lra]. }
    assert (remove_outside (g_dim P) (g_fd P) (g_geps P) five two_tets = [[0;1;2;3]%nat]) as ->.
    { rewrite D, F, G. unfold remove_outside, two_tets. cbn [filter]. rewrite C1, C2, D1, D2. rewrite (proj2 (Rltb_true _ _)) by lra. rewrite (proj2 (Rltb_false _ _)) by lra. reflexivity. }
    rewrite D, CH. cbn [Nat.eqb rbind fst snd]. rewrite four_fix. cbn [rbind fst snd].
    assert (forall v, (v < 4)%nat -> two_fd (nth v four []) = 0) as Z.
    { intros v H. unfold two_fd. do 4 (destruct v as [|v]; [cbn [four nth]; repeat destruct (Req_EM_T _ _); lra|]). lia. }
    assert (improve_level_set (b_uniqR five_backend) (g_fd P) (g_deps P) 3 four (map (orient four) [[0;1;2;3]%nat]) = Ok four) as EI.
    { unfold improve_level_set. destruct (get_boundary_vertices _ _ _) as [|b bid] eqn:E; [exfalso|].
      - revert E. cbn [map b_uniqR five_backend]. unfold orient. destruct (Rltb _ _); cbn [swap2]; vm_compute; discriminate.
      - f_equal. destruct (improve_loop_spec (g_fd P) (g_deps P) (b :: bid) (seq 0 5) 1 four) as (L & I1 & I2 & _). apply (nth_ext _ _ [] []); [exact L|].
        rewrite L. intros v H. destruct (in_dec Nat.eq_dec v (b :: bid)) as [I|I]; [|apply I1; assumption]. apply I2; [exact H|exact I|]. rewrite F. apply Z, H. }
    rewrite EI. cbn [rbind]. rewrite F, H0. unfold remove_outside. cbn [map filter].
    assert (centroid 3 (pts_of four (orient four [0;1;2;3]%nat)) = [1/4;1/4;1/4]) as ->.
    { transitivity (centroid 3 (pts_of five [0;1;2;3]%nat)); [|exact C1]. unfold centroid, pts_of. apply map_ext. intros j. f_equal. rewrite !map_map. unfold orient.
      destruct (Rltb _ _); cbn [swap2 map]; unfold Laplace.rtotal; cbn [fold_right four five nth]; ring. }
    rewrite D1, (proj2 (Rltb_true _ _)) by lra. reflexivity.
  - unfold four. cbn. intros [Q | [Q | [Q | [Q | []]]]]; injection Q; intros; lra.
Qed.
Print Assumptions C86_lost_at_the_end_refuted.

(** a run that meets the hypotheses of C86_fixed_points_stay, C86_nearest_vertex_stays and of C86_generate_mesh's conclusion *)
Definition inside_problem : problem := mkProblem 2 (fun _ => -1) (fun _ => 1) 1 (/ 4) (1 / 10) (3 / 10) [[2; 0]] None 2 false true.
Example C86_case : faithful_tri still_backend /\ Forall (fun x => length x = g_dim inside_problem) [[2; 0]; [0; 0]] /\ In [2; 0] (g_pfix inside_problem) /\
  (forall x, unprojected inside_problem x) /\ forall k, exists p t, triangulated still_backend inside_problem [[2; 0]; [0; 0]] k p t.
Proof.
  split; [intros k p x; reflexivity|]. split; [repeat constructor|]. split; [left; reflexivity|]. split.
  - intros x. split; [cbn; lra|]. intros l s Q. discriminate Q.
  - induction k as [|k (p & t & IH)]; [do 2 eexists; constructor; reflexivity|]. do 2 eexists. eapply tri_next; [exact IH|reflexivity].
Qed.
