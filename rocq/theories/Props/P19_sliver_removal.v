(** sliver_removal (C73). *)
From Coq Require Import Reals List Arith Bool Lra Lia Permutation ZArith.
From Verif Require Import Model.Base Model.SDF Model.Mesh Model.Formulas Model.Forces Model.Newton Model.Dihedral Model.Generator
  Spec.MeshTopo Spec.Geom Spec.Boxes Spec.Bars Spec.Dihedral Spec.Padded.
From Verif Require Import Proofs.ListAux Proofs.MeshAux Proofs.FixMeshProofs Proofs.DihedralProofs Proofs.GenLoop Proofs.SDFPrim Proofs.SDFBox Props.P09_slivers Props.P18_generate.
Import ListNotations.
Local Open Scope R_scope.

(** every triangulation of the back end consists of tetrahedra over its own vertices, which have three coordinates *)
Definition gives_tets (B : backend) : Prop := forall i q r, In r (snd (b_tri B i q)) ->
  length r = 4%nat /\ forall v, In v r -> (v < length (fst (b_tri B i q)))%nat /\ length (nth v (fst (b_tri B i q)) []) = 3%nat.
(** fix_mesh never merges two different vertices of a triangulation *)
Definition never_merges (B : backend) : Prop := forall i q x y, let p := fst (b_tri B i q) in
  In x p -> In y p -> b_key B p x = b_key B p y -> x = y.
Definition degrees (a : R) : R := a * PI / 180.

Lemma sliver_prep B rank points d s o fuel r : sliver_removal B rank points d s o fuel = inl r -> rank = 0%nat.
Proof. unfold sliver_removal. destruct (0 <? rank)%nat eqn:E; [discriminate|]. intros _. apply Nat.ltb_ge in E. lia. Qed.
Lemma sliver_domain_used d s fd : (match size_bbox s with
    | None => Some (dom_fd d)
    | Some b1 => if box_eqb (dom_bbox d) b1 then Some (dom_fd d) else cube_fd (full_bbox d s)
    end) = Some fd -> sliver_domain d s fd.
Proof.
  unfold sliver_domain, full_bbox. destruct (size_bbox s) as [b|] eqn:E; [|intros H; injection H as <-; left; auto].
  unfold box_eqb. destruct (list_eq_dec Req_EM_T (dom_bbox d) b) as [Q|N]; intros H; [injection H as <-; left; split; [right; congruence|reflexivity]|]. right. exists b. split; [reflexivity|].
  split; [congruence|]. destruct (dom_bbox d) as [|x1 [|x2 [|y1 [|y2 [|z1 [|z2 l]]]]]]; try discriminate H; destruct b as [|x1' [|x2' [|y1' [|y2' [|z1' [|z2' l']]]]]]; try discriminate H.
  cbn [minmax_box negb] in H. intros x y z. unfold cube_fd in H. destruct (minmax_box false l l'); [|discriminate H].
  assert (fd = d_eval (Cube (Rmin x1 x1') (Rmax x2 x2') (Rmin y1 y1') (Rmax y2 y2') (Rmin z1 z1') (Rmax z2 z2') no_manip)) as -> by congruence. clear H.
  unfold Cube. rewrite no_manip_eval. unfold c_dblock, box_depth. cbn [nth Nat.mul plus]. rewrite !stdmin_Rmin. f_equal.
  replace (- Rmin z1 z1' + z) with (z - Rmin z1 z1') by lra. replace (- Rmin y1 y1' + y) with (y - Rmin y1 y1') by lra. replace (- Rmin x1 x1' + x) with (x - Rmin x1 x1') by lra.
  set (A := x - _). set (A' := _ - x). set (C := y - _). set (C' := _ - y). set (D := z - _). set (D' := _ - z). clearbody A A' C C' D D'. unfold Rmin. repeat destruct (Rle_dec _ _); lra.
Qed.
Lemma sliver_run B points d s o fuel out k : sliver_removal B 0 points d s o fuel = inl (Some (Ok out, k)) ->
  exists S, sliver_loop B S fuel 0 (1 / 10) None points = Some (Ok out, k) /\ s_max_iter S = so_max_iter o /\ s_lo S = degrees (so_min_deg o) /\ s_hi S = degrees (so_max_deg o) /\
    sliver_domain d s (s_fd S) /\ (exists h0, (match size_hmin s with Some h => Some h | None => so_h0 o end) = Some h0 /\ s_geps S = so_geps_mult o * h0 /\ s_h0 S = h0) /\ s_checks S = so_checks o.
Proof.
  unfold sliver_removal. cbn [Nat.ltb Nat.leb]. destruct (existsb _ _); [discriminate|].
  destruct (match size_bbox s with None => _ | Some _ => _ end) as [fd|] eqn:EF; [|discriminate].
  destruct (match size_hmin s with None => _ | Some _ => _ end) as [h0|]; [|discriminate]. destruct (Rltb h0 0); [discriminate|]. destruct (Rltb (so_max_iter o) 0); [discriminate|].
  intros H. injection H as H. eexists. split; [exact H|]. cbn [s_max_iter s_lo s_hi s_fd s_geps s_h0 s_checks]. repeat split; eauto. apply sliver_domain_used, EF.
Qed.

(** If sliver_removal returns after k triangulations and k is not max_iter, no cell it kept of the last triangulation has a defined
    dihedral angle outside the bounds; the returned cells are these up to the order of corners, and, if fix_mesh merges no two
    different vertices, none of them has such an angle. *)
Theorem C73_no_slivers : forall B points d s o fuel p t k, good_backend B -> gives_tets B ->
  sliver_removal B 0 points d s o fuel = inl (Some (Ok (p, t), k)) -> so_max_iter o <> INR k ->
  never_merges B -> forall r, In r t -> ~ bad_angle (degrees (so_min_deg o)) (degrees (so_max_deg o)) (map (fun v => nth v p []) r).
Proof.
  intros B points d s o fuel p t k HB HT H N NM r' I'. destruct (sliver_run _ _ _ _ _ _ _ _ H) as (S & HS & M & LO & HI & _).
  destruct (sliver_ok _ _ _ _ _ _ _ _ _ HS) as (_ & p0 & p1 & t0 & ET & [(Q & _)|(_ & SL & RF)]); [congruence|].
  assert (forall r, In r t0 -> length r = 4%nat /\ forall v, In v r -> (v < length p1)%nat /\ length (nth v p1 []) = 3%nat) as T
    by (intros r I; specialize (HT (k - 1)%nat p0 r); rewrite ET in HT; exact (HT I)).
  set (t1 := remove_outside _ _ _ _ _) in *. assert (forall r, In r t1 -> In r t0) as SUB by (intros r I; apply filter_In in I; apply I).
  destruct (C55_slivers_exactly p1 t1 (s_lo S) (s_hi S)) as [_ SP].
  { intros r I. destruct (T r (SUB r I)) as [A C]. split; [exact A|]. intros v V. apply C, V. }
  unfold run_fix in RF. destruct (fix_mesh _ _ _ _ _ _ _) as [[[p2 t2] jx]|] eqn:E; [|discriminate]. injection RF as -> ->.
  destruct HB as [HK HR]. destruct (fix_mesh_clean _ _ _ HK HR _ _ (fix_mesh_valid _ _ _ _ _ _ _ _ E) _ _ _ _ _ E) as [[A C D F G J] U].
  destruct (G r' I') as (r & Ir & PM). unfold row_keys in PM.
  assert (Permutation (map (fun v => nth v p []) r') (map (fun v => nth v p1 []) r)) as PP.
  { apply (perm_map_inj (b_key B p1)); [|rewrite !map_map; exact PM].
    intros x y Ix Iy Q. apply in_map_iff in Ix, Iy. destruct Ix as (v & <- & Iv), Iy as (w & <- & Iw).
    specialize (NM (k - 1)%nat p0). rewrite ET in NM. apply NM; [apply C, nth_In, (A r'); assumption|apply nth_In, (proj2 (T r (SUB r Ir))); assumption|exact Q]. }
  destruct (In_nth t1 r [] Ir) as (e & He & <-). intros BA.
  assert (In e (slivers p1 t1 (s_lo S) (s_hi S))) as X; [|rewrite SL in X; destruct X].
  apply SP. split; [exact He|]. rewrite LO, HI. destruct BA as (a & b & c & e' & phi & P1 & P2 & P3). exists a, b, c, e', phi. split; [|tauto].
  etransitivity; [exact P1|exact PP].
Qed.
Print Assumptions C73_no_slivers.
(** the same about the cells of the last triangulation, without the assumption on merging *)
Theorem C73_last_triangulation : forall B points d s o fuel out k, gives_tets B ->
  sliver_removal B 0 points d s o fuel = inl (Some (Ok out, k)) -> so_max_iter o <> INR k ->
  exists q fd h0, sliver_domain d s fd /\ (match size_hmin s with Some h => Some h | None => so_h0 o end) = Some h0 /\ let p1 := fst (b_tri B (k - 1) q) in let t1 := snd (b_tri B (k - 1) q) in
    forall r, In r t1 -> fd (cell_centre 3 p1 r) < - (so_geps_mult o * h0) ->
    ~ bad_angle (degrees (so_min_deg o)) (degrees (so_max_deg o)) (map (fun v => nth v p1 []) r).
Proof.
  intros B points d s o fuel out k HT H N. destruct (sliver_run _ _ _ _ _ _ _ _ H) as (S & HS & M & LO & HI & FD & (h0 & HH & GE & _) & _).
  destruct (sliver_ok _ _ _ _ _ _ _ _ _ HS) as (_ & p0 & p1 & t0 & ET & [(Q & _)|(_ & SL & RF)]); [congruence|].
  exists p0, (s_fd S), h0. split; [exact FD|]. split; [exact HH|]. rewrite ET. cbn [fst snd]. intros r I IN BA.
  assert (forall r, In r t0 -> length r = 4%nat /\ forall v, In v r -> (v < length p1)%nat /\ length (nth v p1 []) = 3%nat) as T
    by (intros r0 I0; specialize (HT (k - 1)%nat p0 r0); rewrite ET in HT; exact (HT I0)).
  set (t1 := remove_outside _ _ _ _ _) in *. assert (In r t1) as I1.
  { apply filter_In. split; [exact I|]. apply Rltb_true. rewrite centroid_centre, GE. exact IN. }
  destruct (C55_slivers_exactly p1 t1 (s_lo S) (s_hi S)) as [_ SP].
  { intros r0 I0. apply filter_In in I0. destruct (T r0 (proj1 I0)) as [A C]. split; [exact A|]. intros v V. apply C, V. }
  destruct (In_nth t1 r [] I1) as (e & He & <-). assert (In e (slivers p1 t1 (s_lo S) (s_hi S))) as X; [|rewrite SL in X; destruct X].
  apply SP. split; [exact He|]. rewrite LO, HI. exact BA.
Qed.
Print Assumptions C73_last_triangulation.
(** With max_iter a positive whole number n it ends after at most n triangulations, whatever the back end does. *)
Theorem C73_budget : forall B points d s o n, so_max_iter o = INR n -> (1 <= n)%nat ->
  exists r k, (k <= n)%nat /\ forall fuel, (n <= fuel)%nat -> sliver_removal B 0 points d s o fuel = inl (Some (r, k)).
Proof.
  intros B points d s o n M N. unfold sliver_removal. cbn [Nat.ltb Nat.leb]. destruct (existsb _ _); [do 2 eexists; split; [|reflexivity]; lia|].
  destruct (match size_bbox s with None => _ | Some _ => _ end) as [fd|]; [|do 2 eexists; split; [|reflexivity]; lia].
  destruct (match size_hmin s with None => _ | Some _ => _ end) as [h0|]; [|do 2 eexists; split; [|reflexivity]; lia].
  destruct (Rltb h0 0); [do 2 eexists; split; [|reflexivity]; lia|]. destruct (Rltb (so_max_iter o) 0); [do 2 eexists; split; [|reflexivity]; lia|].
  set (S := mkSliver _ _ _ _ _ _ _ _ _ _). destruct (sliver_total B S n M n 0 (1 / 10) None points N ltac:(lia)) as (r & k & H & L).
  exists r, k. split; [lia|]. intros fuel F. f_equal. induction F as [|fuel F IH]; [exact H|apply sliver_more, IH].
Qed.
Print Assumptions C73_budget.
(** All other ranks return at once; 2D points are refused. *)
Theorem C73_other_ranks : forall B rank points d s o fuel, (0 < rank)%nat <-> sliver_removal B rank points d s o fuel = inr tt.
Proof.
  intros. unfold sliver_removal. destruct (0 <? rank)%nat eqn:E; [apply Nat.ltb_lt in E|apply Nat.ltb_ge in E]; split; try reflexivity; try tauto; try lia; try discriminate.
Qed.
Print Assumptions C73_other_ranks.
Theorem C73_plane_refused : forall B points d s o fuel x, In x points -> length x = 2%nat ->
  exists e, sliver_removal B 0 points d s o fuel = inl (Some (Err e, 0%nat)).
Proof.
  intros B points d s o fuel x I L. unfold sliver_removal. cbn [Nat.ltb Nat.leb].
  assert (existsb (fun x => (length x =? 2)%nat) points = true) as -> by (apply existsb_exists; exists x; split; [exact I|apply Nat.eqb_eq, L]). eauto.
Qed.
Print Assumptions C73_plane_refused.

(** ---- what the cap, a zero cap and the defaults mean ---- *)
Definition square : list (list R) := [[0;0;0];[1;0;0];[1;1;0];[0;1;0]].
Definition square_backend : backend :=
  mkBackend (fun _ _ => (square, [[0;1;2;3]%nat])) (nodup key_dec) (nodup row_dec) (fun _ x => map up x) ve_pairs (fun p _ => p) (fun n => repeat 0 n).
Lemma square_good : good_backend square_backend /\ gives_tets square_backend /\ never_merges square_backend.
Proof.
  split; [split; apply nodup_uniq_ok|]. split.
  - intros i q r I. cbn in I. destruct I as [<- | []]. split; [reflexivity|]. intros v V. cbn in V. destruct V as [<- | [<- | [<- | [<- | []]]]]; cbn; split; (lia || reflexivity).
  - intros i q x y p X Y. cbn in X, Y. cbn [b_key square_backend]. repeat (destruct X as [<- | X]; [|]); try destruct X;
    repeat (destruct Y as [<- | Y]; [|]); try destruct Y; cbn [map]; rewrite ?up_0, ?up_1; intros Q; try reflexivity; discriminate.
Qed.
Lemma square_fix : run_fix square_backend square [[0;1;2;3]%nat] = Ok (square, [orient square [0;1;2;3]%nat]).
Proof.
  unfold run_fix, fix_mesh. cbn [b_uniqK b_uniqR b_key square_backend square map find_pos]. rewrite !up_0, !up_1. fold square.
  match goal with |- context [nodup key_dec ?l] => let v := eval vm_compute in (nodup key_dec l) in change (nodup key_dec l) with v end.
  vm_compute. reflexivity.
Qed.
Lemma square_bad lo hi : 0 < lo -> bad_angle lo hi (map (fun v => nth v square []) (orient square [0;1;2;3]%nat)).
Proof.
  intros L. pose proof (C55_case lo hi L) as E. destruct (C55_slivers_exactly square [[0;1;2;3]%nat] lo hi) as [_ SP].
  { intros r [<- | []]. split; [reflexivity|]. intros v H. cbn in H. destruct H as [<- | [<- | [<- | [<- | []]]]]; reflexivity. }
  fold square in E. rewrite E in SP. destruct (proj1 (SP 0%nat) ltac:(left; reflexivity)) as [_ (a & b & c & d & phi & P1 & P2 & P3)].
  exists a, b, c, d, phi. split; [|tauto]. etransitivity; [exact P1|]. apply Permutation_map. cbn [nth]. symmetry. apply orient_perm.
Qed.
(** Stopped by the cap the result can contain slivers. *)
Theorem C73_cap_keeps_slivers : exists B points d s o p t r, good_backend B /\ gives_tets B /\ never_merges B /\ so_max_iter o = 1 /\
  sliver_removal B 0 points d s o 1 = inl (Some (Ok (p, t), 1%nat)) /\ In r t /\
  bad_angle (degrees (so_min_deg o)) (degrees (so_max_deg o)) (map (fun v => nth v p []) r).
Proof.
  destruct square_good as (G & T & NM).
  exists square_backend, square, (DFunction (fun _ => -1) [0;1;0;1;0;1]), (SScalar 1), (mkSliverOpts 1 false 10 180 (1 / 10) 1 false None), square, [orient square [0;1;2;3]%nat], (orient square [0;1;2;3]%nat).
  repeat (split; [assumption || reflexivity|]). split.
  - unfold sliver_removal. cbn [Nat.ltb Nat.leb square existsb length Nat.eqb orb]. fold square. cbn [size_bbox dom_fd size_hmin so_max_iter].
    rewrite !(proj2 (Rltb_false _ _)) by lra. cbn [sliver_loop square_backend b_tri s_max_iter]. fold square_backend.
    rewrite (proj2 (Reqb_true _ _)) by (cbn [INR]; lra). cbn [s_fd s_geps s_checks so_geps_mult so_checks]. do 4 f_equal.
    unfold termination. cbn [Nat.eqb rbind fst snd]. unfold remove_outside. cbn [filter]. rewrite (proj2 (Rltb_true _ _)) by lra. apply square_fix.
  - split; [left; reflexivity|]. apply square_bad. unfold degrees. cbn [so_min_deg]. pose proof PI_RGT_0. lra.
Qed.
Print Assumptions C73_cap_keeps_slivers.
(** With max_iter = 0 (accepted) or a fraction the only way to return is to run out of slivers, and the call can run forever. *)
Theorem C73_runs_forever : forall m, 0 <= m -> (forall n, (1 <= n)%nat -> m <> INR n) ->
  forall fuel, sliver_removal square_backend 0 square (DFunction (fun _ => -1) [0;1;0;1;0;1]) (SScalar 1) (mkSliverOpts m false 10 180 (1 / 10) 1 false None) fuel = inl None.
Proof.
  intros m M N fuel. unfold sliver_removal. cbn [Nat.ltb Nat.leb square existsb length Nat.eqb orb]. fold square. cbn [size_bbox dom_fd size_hmin so_max_iter].
  rewrite !(proj2 (Rltb_false _ _)) by lra. f_equal. set (S := mkSliver _ _ _ _ _ _ _ _ _ _).
  generalize (1 / 10) at 1 as step. intros step. generalize (@None nat) as old. intros old. generalize square at 1 as p. intros p. generalize 0%nat at 1 as count. intros count.
  revert step old p count. induction fuel as [|fuel IH]; intros step old p count; [reflexivity|]. cbn [sliver_loop square_backend b_tri]. fold square_backend.
  assert (remove_outside 3 (s_fd S) (s_geps S) square [[0;1;2;3]%nat] = [[0;1;2;3]%nat]) as ->.
  { unfold remove_outside. cbn [filter]. rewrite (proj2 (Rltb_true _ _)); [reflexivity|]. subst S. cbn [s_fd s_geps so_geps_mult]. lra. }
  rewrite (proj2 (Reqb_false _ _)).
  2:{ subst S. cbn [s_max_iter]. intros Q. apply (N (Datatypes.S count)); [lia|]. rewrite S_INR. lra. }
  assert (slivers square [[0;1;2;3]%nat] (s_lo S) (s_hi S) = [0%nat]) as ->.
  { apply C55_case. subst S. cbn [s_lo so_min_deg]. pose proof PI_RGT_0. lra. }
  assert (s_preserve S = false) as -> by reflexivity. apply IH.
Qed.
Print Assumptions C73_runs_forever.
(** With the default options only angles below 10 degrees count: no dihedral angle exceeds the default upper bound of 180 degrees
    (the documentation promises 170). *)
Theorem C73_default_bounds : forall s, bad_angle (degrees (so_min_deg sliver_defaults)) (degrees (so_max_deg sliver_defaults)) s <->
  exists a b c d phi, Permutation [a; b; c; d] s /\ dihedral a b c d phi /\ phi < degrees 10.
Proof.
  intros s. unfold bad_angle. cbn [sliver_defaults so_min_deg so_max_deg]. split; intros (a & b & c & d & phi & P & D & X); exists a, b, c, d, phi; (split; [exact P|]; split; [exact D|]).
  - destruct X as [X|X]; [exact X|]. exfalso. destruct D as (_ & _ & _ & (_ & L) & _). unfold degrees in X. lra.
  - left. exact X.
Qed.
Print Assumptions C73_default_bounds.

Definition corner : list (list R) := [[0;0;0];[1;0;0];[0;1;0];[0;0;1]].
Definition corner_backend : backend :=
  mkBackend (fun _ _ => (corner, [[0;1;2;3]%nat])) (nodup key_dec) (nodup row_dec) (fun _ x => map up x) ve_pairs (fun p _ => p) (fun n => repeat 0 n).
Lemma corner_good : good_backend corner_backend /\ gives_tets corner_backend /\ never_merges corner_backend.
Proof.
  split; [split; apply nodup_uniq_ok|]. split.
  - intros i q r I. cbn in I. destruct I as [<- | []]. split; [reflexivity|]. intros v V. cbn in V. destruct V as [<- | [<- | [<- | [<- | []]]]]; cbn; split; (lia || reflexivity).
  - intros i q x y p X Y. cbn in X, Y. cbn [b_key corner_backend]. repeat (destruct X as [<- | X]; [|]); try destruct X;
    repeat (destruct Y as [<- | Y]; [|]); try destruct Y; cbn [map]; rewrite ?up_0, ?up_1; intros Q; try reflexivity; discriminate.
Qed.
(** the four points (0,0,0), (1,0,0), (0,1,0), (0,0,1) span angles of 90 and about 55 degrees *)
Lemma corner_angles : ~ bad_angle (degrees 10) (degrees 180) corner.
Proof.
  intros (a & b & c & d & phi & P & (AB & U & W & (G0 & GP) & E) & X). destruct X as [X|X]; [|unfold degrees in X; lra].
  assert (sqrt 3 / 2 <= cos phi) as CP.
  { rewrite <- cos_PI6. apply cos_decr_1; pose proof PI_RGT_0; unfold degrees in X; lra. }
  assert (4 * Linear.inner (perp (vec a b) (vec a c)) (perp (vec a b) (vec a d)) ^ 2 < 3 * (Linear.inner (perp (vec a b) (vec a c)) (perp (vec a b) (vec a c)) * Linear.inner (perp (vec a b) (vec a d)) (perp (vec a b) (vec a d)))) as K.
  { clear - P. unfold corner in P. apply perm4 in P.
    repeat match goal with H : _ \/ _ |- _ => destruct H | H : _ /\ _ |- _ => destruct H | H : Permutation [_;_;_] _ |- _ => apply perm3 in H | H : Permutation [_;_] _ |- _ => apply perm2 in H end; subst;
    unfold vec, perp, Linear.vtimes; cbn [map Linear.vplus Linear.inner]; lra. }
  rewrite E in K. set (u := Linear.inner (perp _ _) (perp _ (vec a c))) in *. set (w := Linear.inner (perp _ (vec a d)) _) in *.
  assert (u = sqrt u * sqrt u) as EU by (symmetry; apply sqrt_sqrt; lra). assert (w = sqrt w * sqrt w) as EW by (symmetry; apply sqrt_sqrt; lra).
  assert (0 < sqrt u) by (apply sqrt_lt_R0; lra). assert (0 < sqrt w) by (apply sqrt_lt_R0; lra). assert (sqrt 3 * sqrt 3 = 3) by (apply sqrt_sqrt; lra). pose proof (sqrt_pos 3).
  assert (3 / 4 <= cos phi * cos phi) by nra. assert (0 < u * w) by (apply Rmult_lt_0_compat; assumption).
  replace ((cos phi * sqrt u * sqrt w) ^ 2) with (cos phi * cos phi * ((sqrt u * sqrt u) * (sqrt w * sqrt w))) in K by ring. rewrite <- EU, <- EW in K. nra.
Qed.
(** a run with the default options that stops after one triangulation, far below the cap of 50 *)
Example C73_case : exists t, good_backend corner_backend /\ gives_tets corner_backend /\ never_merges corner_backend /\ t <> [] /\
  so_max_iter sliver_defaults <> INR 1 /\
  sliver_removal corner_backend 0 corner (DFunction (fun _ => -1) [0;1;0;1;0;1]) (SScalar 1) sliver_defaults 50 = inl (Some (Ok (corner, t), 1%nat)).
Proof.
  destruct corner_good as (G & T & NM). exists [orient corner [0;1;2;3]%nat]. repeat (split; [assumption|]). split; [discriminate|]. split; [cbn [so_max_iter sliver_defaults INR]; lra|].
  unfold sliver_removal. cbn [Nat.ltb Nat.leb corner existsb length Nat.eqb orb]. fold corner. cbn [size_bbox dom_fd size_hmin so_max_iter sliver_defaults].
  rewrite !(proj2 (Rltb_false _ _)) by lra. set (S := mkSliver _ _ _ _ _ _ _ _ _ _). f_equal.
  assert (remove_outside 3 (s_fd S) (s_geps S) corner [[0;1;2;3]%nat] = [[0;1;2;3]%nat]) as EO.
  { unfold remove_outside. cbn [filter]. rewrite (proj2 (Rltb_true _ _)); [reflexivity|]. subst S. cbn [s_fd s_geps so_geps_mult sliver_defaults]. lra. }
  assert (slivers corner [[0;1;2;3]%nat] (s_lo S) (s_hi S) = []) as ES.
  { destruct (slivers _ _ _ _) as [|e l] eqn:Q; [reflexivity|exfalso]. destruct (C55_slivers_exactly corner [[0;1;2;3]%nat] (s_lo S) (s_hi S)) as [_ SP].
    { intros r [<- | []]. split; [reflexivity|]. intros v H. cbn in H. destruct H as [<- | [<- | [<- | [<- | []]]]]; reflexivity. }
    rewrite Q in SP. destruct (proj1 (SP e) ltac:(left; reflexivity)) as [L BA]. cbn [length] in L. assert (e = 0%nat) as -> by lia. exact (corner_angles BA). }
  assert (run_fix corner_backend corner [[0;1;2;3]%nat] = Ok (corner, [orient corner [0;1;2;3]%nat])) as EF.
  { unfold run_fix, fix_mesh. cbn [b_uniqK b_uniqR b_key corner_backend corner map find_pos]. rewrite !up_0, !up_1. fold corner.
    match goal with |- context [nodup key_dec ?l] => let v := eval vm_compute in (nodup key_dec l) in change (nodup key_dec l) with v end.
    vm_compute. reflexivity. }
  change 50%nat with (Datatypes.S 49). cbn [sliver_loop b_tri corner_backend]. fold corner_backend. rewrite EO, ES, EF.
  rewrite (proj2 (Reqb_false _ _)); [reflexivity|]. subst S. cbn [s_max_iter so_max_iter sliver_defaults INR]. lra.
Qed.
