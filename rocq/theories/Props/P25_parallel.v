(** C89: generate_mesh on several processes. *)
From Coq Require Import Reals List Arith Bool ZArith Lia Lra Permutation.
From Flocq Require Import Core.
From Verif Require Import Model.Base Model.MPI Model.Process Model.SDF Model.Mesh Model.Forces Model.InitGrid Model.Interp Model.Blocker
  Model.Simplex Model.Migration Model.WhereTo Model.Generator Model.Parallel Spec.Lockstep Spec.MeshTopo Spec.Bars Proofs.Choreo Proofs.ListAux Proofs.ProcessProofs Proofs.ExchangeProofs
  Proofs.MeshAux Proofs.AggregateProofs Proofs.ParallelProofs Proofs.GenLoop Proofs.TriangProofs Props.P18_generate.
Import ListNotations.
Local Open Scope nat_scope.

Lemma fold_min l : forall x, (fold_left Rmin l x <= x)%R /\ (forall y, In y l -> (fold_left Rmin l x <= y)%R) /\ (fold_left Rmin l x = x \/ In (fold_left Rmin l x) l).
Proof.
  induction l as [|a l IH]; intros x; cbn [fold_left]; [repeat split; [lra|intros y []|left; reflexivity]|].
  destruct (IH (Rmin x a)) as (A & B & C). pose proof (Rmin_l x a). pose proof (Rmin_r x a). split; [lra|]. split.
  - intros y [-> |Hy]; [lra|apply B, Hy].
  - destruct C as [C|C]; [|right; right; exact C]. rewrite C. unfold Rmin. destruct (Rle_dec x a); [left; reflexivity|right; left; reflexivity].
Qed.
Lemma least_unique size f m1 m2 : is_least size f m1 -> is_least size f m2 -> m1 = m2.
Proof. intros [A1 (r1 & L1 & ->)] [A2 (r2 & L2 & ->)]. specialize (A1 _ L2). specialize (A2 _ L1). lra. Qed.
Lemma min_all_least size f : 2 <= size -> is_least size f (min_all size f).
Proof.
  intros S2. unfold min_all. destruct (fold_min (map f (seq 1 (size - 1))) (f 0)) as (A & B & C). split.
  - intros r L. destruct r as [|r]; [exact A|]. apply B. apply in_map. apply in_seq. lia.
  - destruct C as [C|C]; [exists 0; split; [lia|exact C]|]. apply in_map_iff in C. destruct C as (r & E & I). apply in_seq in I. exists r. split; [lia|]. symmetry. exact E.
Qed.

Section Run.
Variable Q : par_backend.
Variables size axis : nat.
Variables (d : dom_arg) (s : size_arg) (o : gen_opts).
Hypothesis S2 : 2 <= size.
Lemma rank_fh_eq h0 r : rank_fh size axis s (full_bbox d s) h0 r = size_on_rank size axis d s h0 r.
Proof. unfold rank_fh, size_on_rank, lsf. destruct s; reflexivity. Qed.
Lemma plays_begin fd h0 fh p ext : ranks_start Q size axis d s o fd h0 fh p ext ->
  exists ch, inside size ch /\ length ch <= (size + 3) * (size - 1) /\
  plays size ch (fun r => match o_points o with
             | None => generate_points_p Q size axis s o r (the_dim d s) (full_bbox d s) fd h0 (o_geps_mult o * h0)
             | Some points => user_points_p Q size axis s r (the_dim d s) (full_bbox d s) h0 points
             end) (fun r => Ok (fh r, p r, ext)).
Proof.
  unfold ranks_start. destruct (o_points o) as [points|].
  - intros (blocks & EB & LB & H). exists (user_chor size axis s (full_bbox d s) h0 blocks ext).
    split; [apply user_inside, S2|]. split; [rewrite user_len by exact S2; nia|].
    refine (plays_val _ _ _ _ _ _ (plays_user size S2 Q axis s (the_dim d s) (full_bbox d s) h0 blocks ext points LB EB)).
    intros r L. destruct (H r L) as (-> & -> & _). reflexivity.
  - intros (r0m & LE & H & EX).
    assert (forall r, r < size -> rank_grid size axis (full_bbox d s) fd h0 (o_geps_mult o * h0) r = grid_on_rank size axis d s o fd h0 r) as EG by reflexivity.
    assert (common_r0m size axis s o (full_bbox d s) fd h0 (o_geps_mult o * h0) = r0m) as EM.
    { apply (least_unique size (fun r => r0m_of o h0 (map (size_on_rank size axis d s h0 r) (grid_on_rank size axis d s o fd h0 r)))); [|exact LE].
      unfold common_r0m. match goal with |- is_least _ ?f (min_all _ ?g) => assert (f = g) as -> end; [|apply min_all_least, S2].
      apply FunctionalExtensionality.functional_extensionality. intros r. rewrite rank_fh_eq. reflexivity. }
    assert (forall r, r < size -> rank_points size Q axis s o (the_dim d s) (full_bbox d s) fd h0 (o_geps_mult o * h0) r = p r) as EP.
    { intros r L. destruct (H r L) as (_ & -> & _). unfold rank_points. rewrite EM. unfold decimate, selected_on_rank. rewrite rank_fh_eq. reflexivity. }
    exists (gen_chor size Q axis s o (the_dim d s) (full_bbox d s) fd h0 (o_geps_mult o * h0)). split; [apply gen_inside, S2|].
    split; [rewrite gen_len; destruct (lsf s); nia|].
    refine (plays_val _ _ _ _ _ _ (plays_generate size S2 Q axis s o (the_dim d s) (full_bbox d s) fd h0 (o_geps_mult o * h0) _ _)).
    + intros r L. rewrite EP by exact L. destruct (H r L) as (-> & _). rewrite rank_fh_eq. do 2 f_equal. rewrite EX. unfold rank_ext. apply map_ext_in. intros x Hx. apply in_seq in Hx.
      rewrite EP by lia. reflexivity.
    + intros r L. rewrite EG by exact L. apply H, L.
    + intros r L. rewrite EP by exact L. apply H, L.
Qed.
End Run.

(** For all schedules and all buffering, the ranks compute what the lock-step description says: if the starting points exist on
    every rank, if in every iteration either all ranks have points for all their neighbours or no rank has any, if rank 0 does not
    stop because of the movement, and if every rank's last mesh can be cleaned, then every run is finite, never blocked, and ends
    with the joined mesh of all ranks finished by rank 0, the other ranks returning no mesh. *)
Theorem C89_run : forall Q size axis d s o fuel K fd h0 fh p ext m, 2 <= size -> accepted d s o fd h0 K ->
  ranks_start Q size axis d s o fd h0 fh p ext -> K <= fuel ->
  let P := on_rank d s o fd h0 fh in let points j := after Q size P ext j p in
  (forall j, j < K -> all_export Q size P ext j (points j) \/ all_idle Q size P ext j (points j)) ->
  (forall j, S j < K -> rank0_goes_on Q size P ext j (points j)) ->
  (forall r, r < size -> let l := local_mesh Q size P ext (K - 1) (points (K - 1)) r in run_fix (q_serial Q r) (fst l) (snd l) = Ok (m r)) ->
  forall n st, prun (@anything) n (pstart (parallel_mesh Q size axis d s o fuel)) st ->
    n <= 2 * ((2 * K + size + 7) * (size - 1)) /\
    (~ all_ended st -> exists st', pstep false st st') /\
    (all_ended st -> (forall a b, pc st a b = []) /\
      ended st 0 (Some (match finish (q_serial Q 0) (P 0) (fst (Lockstep.joined size m)) (snd (Lockstep.joined size m)) with Ok x => Ok (Some x) | Err e => Err e end)) /\
      forall r, 0 < r < size -> ended st r (Some (Ok None))).
Proof.
  intros Q size axis d s o fuel K fd h0 fh p ext m S2 (EF & EH & H0 & DD & EM & K0) ST LF P points HE HG HF n st RN.
  destruct (plays_begin Q size axis d s o S2 fd h0 fh p ext ST) as (ch1 & I1 & L1 & P1).
  assert (forall r, r < size -> p r <> []) as NEP. { intros r L. revert ST. unfold ranks_start. destruct (o_points o); [intros (b & _ & _ & H)|intros (b & _ & H & _)]; apply (H r L). }
  assert (forall r, g_max_iter (P r) = INR K) as SI by (intros r; exact EM).
  pose proof (plays_loop size S2 Q P ext K SI K 0 p m fuel LF eq_refl (good_run_after size S2 Q P ext K m p K0 HE HG HF)) as P2.
  set (ch2 := loop_chor size Q P ext K 0 p m) in *. assert (inside size ch2) as I2 by (apply loop_inside, S2).
  assert (length ch2 <= (2 * K + 4) * (size - 1)) as L2 by (apply (loop_len size S2); exact K0).
  assert (plays size (ch1 ++ ch2) (parallel_mesh Q size axis d s o fuel) (results size Q P m)) as PL.
  { apply plays_ext with (f := fun r => pbind (match o_points o with
             | None => generate_points_p Q size axis s o r (the_dim d s) (full_bbox d s) fd h0 (o_geps_mult o * h0)
             | Some points => user_points_p Q size axis s r (the_dim d s) (full_bbox d s) h0 points
             end) (fun x => match x with
        | Err e => Done (Some (Err e))
        | Ok (fh, p, ext) =>
            if Rltb (o_max_iter o) 0 then Done (Some (Err ValueError)) else
            match p with
            | [] => Done (Some (Err AssertionError))
            | _ => par_loop Q size (mkProblem (the_dim d s) fd fh h0 (deps_of h0) (o_geps_mult o * h0) (o_delta_t o) [] (o_subdomains o) (o_max_iter o) (o_perform_checks o) (o_mesh_improvement o))
                     ext r fuel 0 p
            end
        end)).
    { intros r L. unfold parallel_mesh. apply Nat.ltb_lt in L. rewrite L. unfold par_rank. rewrite EF, EH. rewrite (proj2 (Rltb_false _ _) H0).
      fold (the_dim d s). assert ((the_dim d s =? 2) || (the_dim d s =? 3) = true) as -> by (apply orb_true_iff; rewrite !Nat.eqb_eq; exact DD). reflexivity. }
    eapply plays_bind; [exact P1|]. apply plays_ext with (f := fun r => par_loop Q size (P r) ext r fuel 0 (p r)); [|exact P2].
    intros r L. cbv beta iota. assert (Rltb (o_max_iter o) 0 = false) as -> by (apply Rltb_false; rewrite EM; apply pos_INR). specialize (NEP r L). destruct (p r); [congruence|reflexivity]. }
  set (res := fun r => if r <? size then results size Q P m r else None).
  assert (forall r, follows _ _ (parallel_mesh Q size axis d s o fuel r) (project _ (ch1 ++ ch2) r) (flat_map (to _ r) (ch1 ++ ch2)) (res r)) as FO.
  { intros r. unfold res. destruct (Nat.ltb_spec r size) as [L|L]; [apply PL, L|]. destruct (inside_prj size (ch1 ++ ch2) r (inside_app _ _ _ I1 I2) L) as [-> ->].
    unfold parallel_mesh. apply Nat.ltb_ge in L. rewrite L. constructor. }
  destruct (proc_choreography _ _ (ch1 ++ ch2) _ res (fun x Hx => proj2 (proj2 (inside_app _ _ _ I1 I2 x Hx))) FO _ _ _ RN) as (LN & PR & D).
  split; [rewrite app_length in LN; nia|]. split; [exact PR|]. intros E. destruct (D E) as [C R]. split; [exact C|]. split.
  - specialize (R 0). unfold res in R. assert (0 <? size = true) as L by (apply Nat.ltb_lt; lia). rewrite L in R. exact R.
  - intros r L. specialize (R r). unfold res in R. assert (r <? size = true) as L' by (apply Nat.ltb_lt; lia). rewrite L' in R. unfold results in R.
    destruct (Nat.eqb_spec r 0); [lia|]. exact R.
Qed.
Print Assumptions C89_run.

(** ---- whatever a run does ---- *)
Fixpoint every {M A} (phi : A -> Prop) (p : proc M A) : Prop :=
  match p with Done a => phi a | Out _ _ _ k => every phi k | Inp _ _ k => forall m, every phi (k m) end.
Lemma every_bind {M A C} (psi : A -> Prop) (phi : C -> Prop) (p : proc M A) f : every psi p -> (forall a, psi a -> every phi (f a)) -> every phi (pbind p f).
Proof. intros H K. induction p as [a|q u m k IH|q u k IH]; cbn [pbind every] in *; [apply K, H|apply IH, H|]. intros m. apply IH, H. Qed.
Lemma every_true {M A} (p : proc M A) : every (fun _ => True) p.
Proof. induction p as [a|q u m k IH|q u k IH]; cbn; auto. Qed.
Lemma every_any {M A C} (phi : C -> Prop) (p : proc M A) f : (forall a, every phi (f a)) -> every phi (pbind p f).
Proof. intros K. eapply every_bind; [apply every_true|]. intros a _. apply K. Qed.
Lemma every_run {M A} (phi : nat -> A -> Prop) (P : nat -> proc M A) ok n st : (forall r, every (phi r) (P r)) -> prun ok n (pstart P) st -> forall r, every (phi r) (pp st r).
Proof.
  intros H RN. assert (forall st0, prun ok n st0 st -> (forall r, every (phi r) (pp st0 r)) -> forall r, every (phi r) (pp st r)) as G; [|exact (G _ RN H)].
  clear. intros st0 RN. induction RN as [st0|n b s s' s'' OK ST RN IH]; [auto|]. intros H. apply IH. clear IH RN.
  inversion ST as [s0 a q u m kp kq N E1 E2 E3 E4 E5|s0 a q u m c kq E1 E2 E3 E4|s0 a q u m kp E1 E2 E3]; subst; cbn [pp]; intros r.
  - unfold upd. pose proof (H a) as Ha. rewrite E1 in Ha. pose proof (H q) as Hq. rewrite E2 in Hq. destruct (Nat.eqb_spec r q) as [-> |]; [apply Hq|]. destruct (Nat.eqb_spec r a) as [-> |]; [apply Ha|apply H].
  - unfold upd. pose proof (H q) as Hq. rewrite E1 in Hq. destruct (Nat.eqb_spec r q) as [-> |]; [apply Hq|apply H].
  - unfold upd. pose proof (H a) as Ha. rewrite E1 in Ha. destruct (Nat.eqb_spec r a) as [-> |]; [apply Ha|apply H].
Qed.
Definition good_mesh (d : dom_arg) (s : size_arg) (o : gen_opts) (p : list pt) (t : list row) : Prop :=
  exists fd h0, meshed_fd d s = Some fd /\ the_h0 s o = Some h0 /\
  (forall r v, In r t -> In v r -> v < length p) /\
  (forall i j, i < length t -> j < length t -> i <> j -> ~ Permutation (nth i t []) (nth j t [])) /\
  (forall r, In r t -> (fd (cell_centre (the_dim d s) p r) < - (h0 * (1 / 1000)))%R).
Lemma every_loop Q size P ext r fuel (phi : out -> Prop) : phi None -> (forall e, phi (Some (Err e))) -> (r <> 0 -> phi (Some (Ok None))) ->
  (forall p t x, r = 0 -> finish (q_serial Q 0) P p t = Ok x -> phi (Some (Ok (Some x)))) -> forall c p, every phi (par_loop Q size P ext r fuel c p).
Proof.
  intros H1 H2 H3 H4. induction fuel as [|fuel IH]; intros c p; [exact H1|]. cbn [par_loop]. destruct (table _ _ _ _ _ _ _) as [ex|]; [|apply H2].
  apply every_any. intros recv. destruct (with_ghosts _ _ _ _ _ _ _) as [p3 t4]. destruct (Reqb _ _).
  - unfold par_finish. destruct (run_fix _ _ _) as [mesh|e]; [|apply H2]. apply every_any. intros g. destruct (Nat.eqb_spec r 0) as [E|N]; [|apply H3, N].
    cbn [every]. destruct (finish _ _ _ _) as [x|e] eqn:F; [eapply H4; [exact E|exact F]|apply H2].
  - cbv zeta. destruct (r =? 0); [|apply IH]. destruct (compute_forces _ _ _ _ _); [apply H2|]. destruct (Rltb _ _); [apply IH|apply H2].
Qed.
(** In every run, under every schedule, whatever the back end does: only rank 0 returns a mesh; its rows name existing vertices,
    no two are the same cell, and the centre of every cell is at signed distance below -h0/1000. *)
Theorem C89_cells_inside : forall Q size axis d s o fuel n st r p t, good_backend (q_serial Q 0) ->
  prun (@anything) n (pstart (parallel_mesh Q size axis d s o fuel)) st -> ended st r (Some (Ok (Some (p, t)))) -> r = 0 /\ good_mesh d s o p t.
Proof.
  intros Q size axis d s o fuel n st r p t GB RN E.
  pose (phi := fun (r : nat) (a : out) => match a with Some (Ok (Some (p, t))) => r = 0 /\ good_mesh d s o p t | _ => True end).
  assert (forall r, every (phi r) (parallel_mesh Q size axis d s o fuel r)) as EV.
  { clear - GB. intros r. unfold parallel_mesh. destruct (r <? size); [|exact I]. unfold par_rank. destruct (meshed_fd d s) as [fd|] eqn:EF; [|exact I].
    destruct (the_h0 s o) as [h0|] eqn:EH; [|exact I]. destruct (Rltb h0 0); [exact I|]. destruct (negb _); [exact I|]. apply every_any.
    intros [[[fh p] ext]|e]; [|exact I]. destruct (Rltb _ 0); [exact I|]. destruct p as [|x p]; [exact I|]. apply every_loop; try (cbn; auto; fail).
    intros p1 t1 [p2 t2] Er F. cbn. split; [exact Er|]. destruct (finish_spec _ GB _ _ _ _ _ F) as (A1 & A2 & A3 & _). cbn [g_dim g_fd g_h0] in A3.
    exists fd, h0. split; [exact EF|]. split; [exact EH|]. split; [exact A1|]. split; [exact A2|]. intros c Hc. specialize (A3 c Hc). rewrite centroid_centre in A3. exact A3. }
  pose proof (every_run phi _ _ _ _ EV RN r) as H. unfold ended in E. rewrite E in H. exact H.
Qed.
Print Assumptions C89_cells_inside.
(** fixed points and corners of the domain are not used by several processes *)
Theorem C89_fixed_points_ignored : forall Q size axis f b c1 c2 dim s o pfix fuel r,
  let with_corners c := DObject {| d_dim := dim; d_bbox := b; d_corners := c; d_eval := f |} in
  let with_pfix l := mkOpts (o_max_iter o) (o_perform_checks o) l (o_points o) (o_delta_t o) (o_geps_mult o) (o_subdomains o) (o_mesh_improvement o) (o_r0m_is_h0 o) (o_h0 o) in
  parallel_mesh Q size axis (with_corners c1) s o fuel r = parallel_mesh Q size axis (with_corners c2) s (with_pfix pfix) fuel r.
Proof. reflexivity. Qed.
Print Assumptions C89_fixed_points_ignored.

(** ---- a concrete run: the rectangle (0,4) x (0,1), size 1, two processes, split along the first axis, two iterations ---- *)
Local Open Scope R_scope.
Definition pts0 : list (list R) := [[0;0];[0;1];[1;1/2];[1;3/2];[2;0];[2;1]].
Definition pts1 : list (list R) := [[3;0];[3;1];[4;1/2];[4;3/2]].
Definition own (r : nat) : list (list R) := match r with O => pts0 | _ => pts1 end.
Definition far_box (b : corners) : bool := Rltb (nth 0 (fst b) 0) (-100).
Definition Q2 : par_backend :=
  mkPar (fun r _ _ => (own r, [[0;1;2]%nat])) (fun r _ _ recv => (own r ++ recv, [[0;1;2]%nat])) (fun _ b => negb (far_box b)) (fun _ => 0) (fun x => x)
    (fun _ => mkBackend (fun _ p => (p, [])) (nodup key_dec) (nodup row_dec) (fun _ x => map Rdefinitions.up x) ve_pairs (fun p _ => p) (fun n => repeat 0 n)).
Definition dom2 : dom_arg := DFunction (fun _ => -1) [0;4;0;1].
Definition siz2 : size_arg := SFunction (fun _ => 1).
Definition opt2 : gen_opts := mkOpts 2 false [] None 0 (1/10) None false false (Some 1).
Lemma grids2 : make_init_points [(0,4);(0,1)] 0 2 0 1 = pts0 /\ make_init_points [(0,4);(0,1)] 1 2 0 1 = pts1.
Proof.
  unfold make_init_points, local_span, limit. cbn [length seq map Nat.eqb nth fst snd INR]. unfold create_staggered_grid, staggered2. cbn [fst snd].
  assert (n_nodes (0 + 0 * ((4 - 0) / (1 + 1))) (0 + 1 * ((4 - 0) / (1 + 1)) + 1) 1 = 3%nat) as -> by (unfold n_nodes; rewrite (Zceil_imp 3) by (rewrite minus_IZR; lra); reflexivity).
  assert (n_nodes 0 (1 + 1) 1 = 2%nat) as -> by (unfold n_nodes; rewrite (Zceil_imp 2) by (rewrite minus_IZR; lra); reflexivity).
  unfold node, shift, pts0, pts1. cbn [seq flat_map map app Nat.odd Nat.even negb Nat.sub INR]. split; [repeat (f_equal; try lra)|].
  match goal with |- context [n_nodes ?a ?b 1] => assert (n_nodes a b 1 = 2%nat) as -> by (unfold n_nodes; rewrite (Zceil_imp 2) by (rewrite minus_IZR; lra); reflexivity) end.
  cbn. repeat (f_equal; try lra).
Qed.

Definition ext2 : list (list R) := [[-5;0;7;3/2];[-2;0;9;3/2]].
Lemma minmax4 : min_list (map (fun x => nth 0 x 0) pts0) = 0 /\ min_list (map (fun x => nth 1 x 0) pts0) = 0 /\ max_list (map (fun x => nth 0 x 0) pts0) = 2 /\ max_list (map (fun x => nth 1 x 0) pts0) = 3/2 /\
  min_list (map (fun x => nth 0 x 0) pts1) = 3 /\ min_list (map (fun x => nth 1 x 0) pts1) = 0 /\ max_list (map (fun x => nth 0 x 0) pts1) = 4 /\ max_list (map (fun x => nth 1 x 0) pts1) = 3/2.
Proof. unfold pts0, pts1. cbn. unfold Rmin, Rmax. repeat split; repeat (destruct (Rle_dec _ _); try lra). Qed.
Lemma exts2 : map (fun r => padded_extent 0 dom2 siz2 1 (own r)) (seq 0 2) = ext2.
Proof.
  cbn [seq map own]. unfold padded_extent, the_dim. cbn [full_bbox siz2 dom2 size_bbox dom_bbox length Nat.div2 seq map Nat.eqb app].
  destruct minmax4 as (-> & -> & -> & -> & -> & -> & -> & ->). unfold ext2. repeat (f_equal; try lra).
Qed.
Lemma starts2 : ranks_start Q2 2 0 dom2 siz2 opt2 (fun _ => -1) 1 (fun _ _ => 1) own ext2.
Proof.
  assert (forall r, (r < 2)%nat -> grid_on_rank 2 0 dom2 siz2 opt2 (fun _ => -1) 1 r = own r) as EG.
  { intros r L. unfold grid_on_rank. assert (make_init_points (pairs_of (full_bbox dom2 siz2)) r 2 0 1 = own r) as ->.
    { cbn [full_bbox siz2 dom2 size_bbox dom_bbox pairs_of]. destruct r as [|[|r]]; [apply grids2|apply grids2|lia]. }
    assert (Rltb (-1) (o_geps_mult opt2 * 1) = true) as E by (apply Rltb_true; cbn; lra). rewrite E. apply filter_all. reflexivity. }
  assert (forall r, (r < 2)%nat -> r0m_of opt2 1 (map (size_on_rank 2 0 dom2 siz2 1 r) (grid_on_rank 2 0 dom2 siz2 opt2 (fun _ => -1) 1 r)) = 1) as EM.
  { intros r L. rewrite EG by exact L. unfold r0m_of. cbn [opt2 o_r0m_is_h0]. destruct r as [|[|r]]; [| |lia]; cbn [own pts0 pts1 map size_on_rank siz2]; cbn; unfold Rmin; repeat (destruct (Rle_dec _ _); try lra). }
  unfold ranks_start. cbn [opt2 o_points]. exists 1. split; [|split].
  - split; [intros r L; rewrite EM by exact L; lra|]. exists O. split; [lia|]. symmetry. apply EM. lia.
  - intros r L. split; [reflexivity|]. rewrite EG by exact L. split; [|destruct r as [|[|r]]; [| |lia]; split; discriminate].
    unfold selected_on_rank. rewrite EG by exact L. assert (forall i, Rltb (nth i (b_rand (q_serial Q2 r) (length (own r))) 0) (1 ^ the_dim dom2 siz2 / size_on_rank 2 0 dom2 siz2 1 r (nth i (own r) []) ^ the_dim dom2 siz2) = true) as RB.
    { intros i. apply Rltb_true. cbn [Q2 q_serial b_rand size_on_rank siz2]. rewrite nth_repeat0 || rewrite (nth_repeat 0 (length (own r)) i). cbn. lra. }
    rewrite filter_all by (intros i _; apply RB). destruct r as [|[|r]]; [reflexivity|reflexivity|lia].
  - symmetry. exact exts2.
Qed.

Notation P2 := (on_rank dom2 siz2 opt2 (fun _ => -1) 1 (fun _ _ => 1)).
Lemma boxes_seen r : (r < 2)%nat -> let s := element (own r) [[0;1;2]%nat] 0 in
  let l := lower_box 2 2 r ext2 in let u := upper_box 2 2 r ext2 in
  Reqb (simp_vol s) 0 = false /\
  (do_overlap (element_lo 2 s) (element_hi 2 s) (fst l) (snd l) || do_overlap (element_lo 2 s) (element_hi 2 s) (fst u) (snd u) = true) /\
  far_box l = (r =? 0)%nat /\ far_box u = negb (r =? 0)%nat.
Proof.
  intros L s l u. unfold l, u, s, lower_box, upper_box, far_box. destruct r as [|[|r]]; [| |lia]; cbn [own Nat.eqb Nat.sub Nat.add element nth map pts0 pts1 extent_box ext2 firstn skipn fst snd dummy_box repeat negb].
  - split; [apply Reqb_false; cbn; lra|]. split; [|split; [apply Rltb_true; lra|apply Rltb_false; lra]].
    apply orb_true_iff. right. unfold element_lo, element_hi. cbn [seq map nth]. cbn [do_overlap]. rewrite !andb_true_iff, !negb_true_iff, !Rltb_false. cbn. unfold Rmin, Rmax. repeat split; repeat (destruct (Rle_dec _ _); try lra).
  - split; [apply Reqb_false; cbn; lra|]. split; [|split; [apply Rltb_false; lra|apply Rltb_true; lra]].
    apply orb_true_iff. left. unfold element_lo, element_hi. cbn [seq map nth]. cbn [do_overlap]. rewrite !andb_true_iff, !negb_true_iff, !Rltb_false. cbn. unfold Rmin, Rmax. repeat split; repeat (destruct (Rle_dec _ _); try lra).
Qed.
Lemma export2 c p : all_export Q2 2 P2 ext2 c p.
Proof.
  intros r L. destruct (boxes_seen r L) as (V & OV & FL & FU). unfold table. cbn [Q2 q_tri q_meets q_unknown]. change (g_dim (P2 r)) with 2%nat.
  set (l := lower_box 2 2 r ext2) in *. set (u := upper_box 2 2 r ext2) in *. unfold enqueue. fold l u.
  assert (forall v, destination 2 (fun _ b => negb (far_box b)) l u (own r) [[0;1;2]%nat] v = if (v <? 3)%nat then Some (r =? 0)%nat else None) as D.
  { intros v. unfold destination. destruct v as [|[|[|v]]]; cbn [vtoe length seq flat_map nth filter Nat.eqb map app Nat.ltb Nat.leb scan]; try reflexivity; rewrite OV, V, FL, FU; destruct (r =? 0)%nat; reflexivity. }
  unfold where_to. assert (forall n vs b a, export_writes 2 (own r) (destination 2 (fun _ b => negb (far_box b)) l u (own r) [[0;1;2]%nat]) n vs b a = export_writes 2 (own r) (fun v => if (v <? 3)%nat then Some (r =? 0)%nat else None) n vs b a) as EW.
  { intros n vs. induction vs as [|v vs IH]; intros b a; [reflexivity|]. cbn [export_writes]. rewrite D. destruct (v <? 3)%nat; [|apply IH]. rewrite !IH. reflexivity. }
  assert (forall o n, count o (destination 2 (fun _ b => negb (far_box b)) l u (own r) [[0;1;2]%nat]) n = count o (fun v => if (v <? 3)%nat then Some (r =? 0)%nat else None) n) as EC.
  { intros o n. unfold count. f_equal. apply filter_ext. intros v. rewrite D. reflexivity. }
  rewrite EW, !EC. clear EW EC D FL FU OV V l u. destruct r as [|[|r]]; [| |lia].
  - eexists. split; [cbn; reflexivity|]. split; [lia|]. intros _. unfold read_table. cbn [nsa nth table_view]. cbn. replace (1 + 1 + 1) with (IZR 3) by lra. rewrite Ztrunc_IZR. discriminate.
  - eexists. split; [cbn; reflexivity|]. split; [|lia]. intros _. unfold read_table. cbn [nsa nth table_view]. cbn. replace (1 + 1 + 1) with (IZR 3) by lra. rewrite Ztrunc_IZR. discriminate.
Qed.

Lemma ghosts2 c p r recv : (r < 2)%nat -> with_ghosts Q2 (P2 r) ext2 r c p recv = (own r ++ recv, [[0;1;2]%nat]).
Proof.
  intros L. unfold with_ghosts. cbn [Q2 q_ins]. unfold remove_external. cbn [q_rnd Q2].
  change (g_dim (P2 r)) with 2%nat. change (g_fd (P2 r)) with (fun _ : pt => -1).
  assert (ext_dist (fun x => x) (nth r ext2 []) (nth 0 (own r ++ recv) []) <= 0) as E.
  { destruct r as [|[|r]]; [| |lia]; cbn [own pts0 pts1 app nth ext2 ext_dist]; unfold c_drectangle; cbn [nth]; unfold stdmin; repeat match goal with |- context [Rltb ?a ?b] => let K := fresh in destruct (Rltb a b) eqn:K; [apply Rltb_true in K|apply Rltb_false in K] end; lra. }
  cbn [filter]. rewrite (proj2 (Rltb_false _ _) E).
  assert (forall x : list nat, (length x <= 2)%nat -> negb (length x =? 3)%nat = true) as LL by (intros x Hx; apply negb_true_iff, Nat.eqb_neq; lia).
  rewrite LL by (destruct (Rltb 0 _), (Rltb 0 _); cbn; lia). unfold remove_outside. cbn [filter].
  assert (Rltb (-1) (- g_geps (P2 r)) = true) as -> by (apply Rltb_true; cbn; lra). reflexivity.
Qed.
Lemma local2 c p r : (r < 2)%nat -> exists recv, local_mesh Q2 2 P2 ext2 c p r = (own r ++ recv, [[0;1;2]%nat]).
Proof. intros L. unfold local_mesh. eexists. apply ghosts2, L. Qed.
Lemma go_on2 c p : rank0_goes_on Q2 2 P2 ext2 c p.
Proof.
  destruct (local2 c p 0 ltac:(lia)) as (recv & E). unfold rank0_goes_on. rewrite E. cbn [fst snd]. split.
  - intros K. apply (f_equal (@length (list R))) in K. unfold compute_forces in K. rewrite map_length, seq_length, app_length in K. discriminate.
  - unfold max_move. change (g_delta_t (P2 0)) with 0. change (g_h0 (P2 0)) with 1. lra.
Qed.
Definition final2 (r : nat) : list pt * list row :=
  let l := local_mesh Q2 2 P2 ext2 1 (after Q2 2 P2 ext2 1 own) r in
  match run_fix (q_serial Q2 r) (fst l) (snd l) with Ok m => m | Err _ => ([], []) end.
Lemma clean2 r : (r < 2)%nat -> let l := local_mesh Q2 2 P2 ext2 1 (after Q2 2 P2 ext2 1 own) r in run_fix (q_serial Q2 r) (fst l) (snd l) = Ok (final2 r).
Proof.
  intros L l. unfold final2. fold l. assert (exists m, run_fix (q_serial Q2 r) (fst l) (snd l) = Ok m) as [m E]; [|rewrite E; reflexivity].
  unfold l. destruct (local2 1 (after Q2 2 P2 ext2 1 own) r L) as (recv & ->). cbn [fst snd]. unfold run_fix, fix_mesh.
  assert (exists x y z q, own r ++ recv = x :: y :: z :: q) as (x & y & z & q & ->) by (destruct r as [|[|r]]; [| |lia]; cbn [own pts0 pts1 app]; repeat eexists).
  cbn [length Nat.eqb valid_rows forallb Nat.ltb Nat.leb andb]. cbv zeta. cbv iota. eexists. reflexivity.
Qed.
(** the hypotheses of C89_run hold for this run: it ends under every schedule *)
Example C89_case : exists res, forall n st, prun (@anything) n (pstart (parallel_mesh Q2 2 0 dom2 siz2 opt2 2)) st ->
  (n <= 26)%nat /\ (~ all_ended st -> exists st', pstep false st st') /\ (all_ended st -> ended st 0 (Some res) /\ ended st 1 (Some (Ok None))).
Proof.
  eexists. intros n st RN.
  destruct (C89_run Q2 2 0 dom2 siz2 opt2 2 2 (fun _ => -1) 1 (fun _ _ => 1) own ext2 final2 ltac:(lia)) with (n := n) (st := st) as (A & B & C); try exact RN.
  - split; [reflexivity|]. split; [reflexivity|]. split; [lra|]. split; [left; reflexivity|]. split; [cbn; lra|lia].
  - exact starts2.
  - lia.
  - intros j _. left. apply export2.
  - intros j _. apply go_on2.
  - intros r L. apply clean2, L.
  - split; [cbn in A; lia|]. split; [exact B|]. intros E. destruct (C E) as (_ & C0 & C1). split; [exact C0|]. apply C1. lia.
Qed.
