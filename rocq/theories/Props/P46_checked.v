(** C111: what the checks of perform_checks say about the returned mesh. *)
From Coq Require Import Reals List Arith Bool ZArith Lia Lra Permutation.
From Verif Require Import Model.Base Model.SDF Model.Simplex Model.Mesh Model.Formulas Model.Forces Model.Newton Model.Generator Spec.MeshTopo Spec.Lint
  Spec.Geom   Proofs.ListAux Proofs.MeshAux Proofs.Euclid Proofs.SDFPrim Proofs.SDFBox Proofs.EdgeProofs Proofs.TopoProofs Proofs.FixMeshProofs Proofs.SimplexProofs Proofs.NewtonProofs Proofs.GenLoop
  Props.P06_mesh Props.P18_generate.
Import ListNotations.
Local Open Scope R_scope.

Lemma finish_checked B P p t p' t' : finish B P p t = Ok (p', t') -> g_checks P = true ->
  exists pin tin p1 t1, linter B (g_dim P) (10 / 100) pin tin = Ok (p1, t1) /\ improve_level_set (b_uniqR B) (g_fd P) (g_deps P) (g_dim P) p1 t1 = Ok p' /\
    t' = remove_outside (g_dim P) (g_fd P) (g_h0 P * (1 / 1000)) p' t1.
Proof.
  intros H C. unfold finish in H. destruct (termination _ _ _ _ _ _) as [[p1 t1]|e] eqn:E; [|discriminate]. cbn [rbind fst snd] in H.
  destruct (improve_level_set _ _ _ _ _ _) as [p2|e] eqn:E2; [|discriminate]. cbn [rbind] in H. injection H as <- <-.
  unfold termination in E. destruct (if (g_dim P =? 2)%nat then _ else _) as [[pin tin]|e]; [|discriminate]. cbn [rbind fst snd] in E. rewrite C in E.
  exists pin, tin, p1, t1. auto.
Qed.
Lemma prepared B d s o P p : prepare B d s o = Ok (P, p) ->
  g_dim P = Nat.div2 (length (full_bbox d s)) /\ meshed_fd d s = Some (g_fd P) /\ the_h0 s o = Some (g_h0 P) /\ g_checks P = o_perform_checks o /\ g_max_iter P = o_max_iter o.
Proof.
  unfold prepare. destruct (meshed_fd d s) as [fd|]; [|discriminate]. destruct (the_h0 s o) as [h0|]; [|discriminate]. destruct (Rltb h0 0); [discriminate|].
  destruct (negb _); [discriminate|]. destruct (start_points _ _ _ _ _ _ _ _ _) as [q|]; [|discriminate]. cbn [rbind]. destruct (Rltb _ 0); [discriminate|].
  destruct q; [discriminate|]. intros H. injection H as <- _. repeat split.
Qed.

(** The linter is run on the mesh before the last step.  Of what it returned, that step moves the vertices of the boundary that are
    not on the level set, and drops the cells whose centre is then not inside by h0/1000. *)
Theorem C111_checked_then_moved : forall B d s o fuel p t k, generate_mesh B d s o fuel = Some (Ok (p, t), k) -> o_perform_checks o = true ->
  exists dim fd h0 pin tin p1 t1, dim = Nat.div2 (length (full_bbox d s)) /\ meshed_fd d s = Some fd /\ the_h0 s o = Some h0 /\
    linter B dim (10 / 100) pin tin = Ok (p1, t1) /\ length p = length p1 /\
    (forall v, (v < length p1)%nat -> ~ In v (get_boundary_vertices (b_uniqR B) dim t1) \/ fd (nth v p1 []) = 0 -> nth v p [] = nth v p1 []) /\
    (forall r, In r t <-> In r t1 /\ fd (centroid dim (pts_of p r)) < - (h0 * (1 / 1000))).
Proof.
  intros B d s o fuel p t k H C. unfold generate_mesh in H. destruct (prepare B d s o) as [[P p0]|e] eqn:EP; [|discriminate].
  destruct (prepared _ _ _ _ _ _ EP) as (P1 & P2 & P3 & P4 & _). destruct (loop_ok _ _ _ _ _ _ _ H) as (_ & _ & q & u & F).
  destruct (finish_checked _ _ _ _ _ _ F ltac:(congruence)) as (pin & tin & p1 & t1 & L & I & T). rewrite P1 in *.
  exists (Nat.div2 (length (full_bbox d s))), (g_fd P), (g_h0 P), pin, tin, p1, t1. split; [reflexivity|]. split; [exact P2|]. split; [exact P3|]. split; [exact L|].
  unfold improve_level_set in I. destruct (get_boundary_vertices _ _ t1) as [|b bid]; [discriminate|]. injection I as <-.
  destruct (improve_loop_spec (g_fd P) (g_deps P) (b :: bid) (seq 0 5) 1 p1) as (S1 & S2 & S3 & _). split; [exact S1|]. split.
  - intros v Lv O. destruct (in_dec Nat.eq_dec v (b :: bid)) as [Y|N]; [|apply S2; assumption]. destruct O as [O|O]; [contradiction|]. apply S3; assumption.
  - intros r. rewrite T. unfold remove_outside. rewrite filter_In, Rltb_true. reflexivity.
Qed.
Print Assumptions C111_checked_then_moved.

Lemma linter_oriented B dim mq p t p' t' : linter B dim mq p t = Ok (p', t') -> forall r, In r t' -> 0 <= simp_vol (pts_of p' r).
Proof.
  intros H. destruct (linter_fix _ _ _ _ _ _ _ H) as (_ & p0 & t0 & E). unfold run_fix in E.
  destruct (fix_mesh _ _ _ _ _ _ _) as [[[q u] j]|e] eqn:F; [|discriminate]. injection E as -> ->. exact (proj1 (C34_orientation _ _ _ _ _ _ _ _ _ F)).
Qed.
(** So the checks hold of the returned mesh when the boundary vertices were on the level set already: ... *)
Theorem C111_kept_if_on_boundary : forall B d s o fuel p t k, generate_mesh B d s o fuel = Some (Ok (p, t), k) -> o_perform_checks o = true ->
  exists dim fd pin tin p1 t1, dim = Nat.div2 (length (full_bbox d s)) /\ meshed_fd d s = Some fd /\ linter B dim (10 / 100) pin tin = Ok (p1, t1) /\
    ((forall v, In v (get_boundary_vertices (b_uniqR B) dim t1) -> fd (nth v p1 []) = 0) ->
     p = p1 /\ incl t t1 /\ forall r, In r t -> 0 <= simp_vol (pts_of p r)).
Proof.
  intros B d s o fuel p t k H C. destruct (C111_checked_then_moved B d s o fuel p t k H C) as (dim & fd & h0 & pin & tin & p1 & t1 & E1 & E2 & E3 & L & LE & V & T).
  exists dim, fd, pin, tin, p1, t1. repeat split; try assumption; intros.
  - apply (nth_ext _ _ [] []); [exact LE|]. rewrite LE. intros v Lv. apply V; [exact Lv|].
    destruct (in_dec Nat.eq_dec v (get_boundary_vertices (b_uniqR B) dim t1)) as [Y|N]; [right; auto|left; exact N].
  - intros r I. apply T in I. apply I.
  - assert (p = p1) as ->.
    { apply (nth_ext _ _ [] []); [exact LE|]. rewrite LE. intros v Lv. apply V; [exact Lv|].
      destruct (in_dec Nat.eq_dec v (get_boundary_vertices (b_uniqR B) dim t1)) as [Y|N]; [right; auto|left; exact N]. }
    apply T in H1. eapply linter_oriented; [exact L|apply H1].
Qed.
Print Assumptions C111_kept_if_on_boundary.

(** ---- ... but not in general ---- *)
(** a square domain of side 60; four points, three of them on the boundary; two good triangles *)
Definition quad (y : R) : list pt := [[0; 0]; [0; 18]; [24; 0]; [22; y]].
Definition quad_cells : list row := [[1;0;2]; [1;2;3]]%nat.
Definition quad_backend : backend :=
  mkBackend (fun _ _ => (quad 21, quad_cells)) (nodup key_dec) (nodup row_dec) (fun _ x => map up x) ve_pairs (fun p _ => p) (fun n => repeat 0 n).
Definition quad_opts : gen_opts := mkOpts 1 true [] (Some (quad 21)) (3 / 10) (1 / 10) None true false None.
Definition square : dom_arg := DObject (Rectangle 0 60 0 60 no_manip).
Lemma quad_orient : map (orient (quad 21)) [[0;1;2]; [1;2;3]]%nat = quad_cells.
Proof.
  unfold quad_cells, quad. cbn [map]. unfold orient. cbn [map nth]. f_equal; [|f_equal].
  - rewrite (proj2 (Rltb_true _ _)); [reflexivity|]. cbn. lra.
  - rewrite (proj2 (Rltb_false _ _)); [reflexivity|]. cbn. lra.
Qed.
Lemma quad_fix : run_fix quad_backend (quad 21) quad_cells = Ok (quad 21, quad_cells).
Proof.
  transitivity (@Ok (list pt * list row) (quad 21, map (orient (quad 21)) [[0;1;2]; [1;2;3]]%nat)); [|rewrite quad_orient; reflexivity]. unfold run_fix, fix_mesh.
  cbn [b_uniqK b_uniqR b_key quad_backend quad map find_pos]. rewrite !up_IZR.
  match goal with |- context [nodup key_dec ?l] => let v := eval vm_compute in (nodup key_dec l) in change (nodup key_dec l) with v end.
  vm_compute. reflexivity.
Qed.
Lemma sqrt_in x lo hi : 0 <= lo -> 0 <= hi -> lo * lo <= x <= hi * hi -> lo <= sqrt x <= hi.
Proof.
  intros L H (A & B). split.
  - rewrite <- (sqrt_square lo) by exact L. apply sqrt_le_1_alt, A.
  - rewrite <- (sqrt_square hi) by exact H. apply sqrt_le_1_alt, B.
Qed.
Lemma quality_above a b c lo : 0 < a -> 0 < b -> 0 < c -> lo * (a * b * c) <= mprod a b c -> exists q, qual_sides a b c = Some q /\ lo <= q.
Proof.
  intros A B C H. unfold qual_sides. rewrite (proj2 (Reqb_false a 0)), (proj2 (Reqb_false b 0)), (proj2 (Reqb_false c 0)) by lra. cbn [orb].
  eexists. split; [reflexivity|]. assert (0 < a * b * c) by (repeat apply Rmult_lt_0_compat; assumption).
  apply Rmult_le_reg_r with (a * b * c); [assumption|]. replace (mprod a b c / (a * b * c) * (a * b * c)) with (mprod a b c) by (field; repeat split; lra). exact H.
Qed.
Lemma side_len a b c d x : 0 <= x -> (a - c) ^ 2 + ((b - d) ^ 2 + 0) = x * x -> edist [a; b] [c; d] = x.
Proof. intros X H. unfold edist, sqdist. rewrite H. apply sqrt_square, X. Qed.
Lemma quad_quality e : (e < 2)%nat -> exists q, entity_qual (quad 21) quad_cells e = Some q /\ 15 / 100 <= q.
Proof.
  intros L. unfold entity_qual, quad_cells, quad. destruct e as [|[|e]]; [| |lia]; cbn [nth map]; rewrite simp_qual_sides by reflexivity.
  - assert (edist [24; 0] [0; 0] = 24) as -> by (apply side_len; lra).
    assert (edist [0; 0] [0; 18] = 18) as -> by (apply side_len; lra).
    assert (edist [24; 0] [0; 18] = 30) as -> by (apply side_len; lra).
    apply quality_above; unfold mprod; lra.
  - assert (edist [24; 0] [0; 18] = 30) as -> by (apply side_len; lra).
    assert (B1 : 22 <= edist [22; 21] [0; 18] <= 23). { unfold edist. apply sqrt_in; unfold sqdist; cbn; lra. }
    assert (B2 : 21 <= edist [22; 21] [24; 0] <= 22). { unfold edist. apply sqrt_in; unfold sqdist; cbn; lra. }
    set (x := edist [22; 21] [0; 18]) in *. set (y := edist [22; 21] [24; 0]) in *. clearbody x y.
    apply quality_above; [lra|lra|lra|]. unfold mprod.
    apply Rle_trans with (15 / 100 * (30 * 23 * 22)).
    + apply Rmult_le_compat_l; [lra|]. apply Rmult_le_compat; lra.
    + apply Rle_trans with (13 * 28 * 30); [lra|]. repeat apply Rmult_le_compat; lra.
Qed.
Lemma quad_delete mq : mq <= 15 / 100 -> run_delete quad_backend mq (quad 21) quad_cells = Ok (quad 21, quad_cells).
Proof.
  intros M. unfold run_delete, delete_boundary_entities.
  assert (kept_rows (entity_qual (quad 21) quad_cells) mq (get_boundary_entities (b_uniqR quad_backend) 2 quad_cells (b_ve quad_backend quad_cells)) quad_cells = quad_cells) as ->.
  { assert (get_boundary_entities (b_uniqR quad_backend) 2 quad_cells (b_ve quad_backend quad_cells) = [0; 1]%nat) as -> by (vm_compute; reflexivity).
    unfold kept_rows. cbn [filter]. destruct (quad_quality 0) as (q0 & -> & Q0); [lia|]. destruct (quad_quality 1) as (q1 & -> & Q1); [lia|].
    cbn [poor]. rewrite (proj2 (Rltb_false q0 mq)), (proj2 (Rltb_false q1 mq)) by lra. reflexivity. }
  pose proof quad_fix as F. unfold run_fix in F. exact F.
Qed.
Lemma overlap_none p t ve : (let '(vtoe, ptr) := vtoe_result ve in forallb (fun ie => forallb (fun ele => (ele <? length t)%nat) (flat_map (fun v => slice vtoe (nth v ptr O) (nth (S v) ptr O)) (nth ie t []))) (seq 0 (length t))) = true ->
  (forall ie ele, in_entity 2 (centroid 2 (pts_of p (nth ie t []))) p (nth ele t []) = false \/ ie = ele \/ (length t <= ie)%nat \/ (length t <= ele)%nat) ->
  do_any_overlap 2 p t ve = [].
Proof.
  unfold do_any_overlap. destruct (vtoe_result ve) as [vtoe ptr]. intros H G. rewrite forallb_forall in H.
  destruct (flat_map _ _) as [|x l] eqn:E; [reflexivity|exfalso]. assert (I : In x (x :: l)) by (left; reflexivity). rewrite <- E in I. apply in_flat_map in I as (ie & I1 & I2).
  specialize (H ie I1). rewrite forallb_forall in H. apply in_flat_map in I2 as (ele & J1 & J2). specialize (H ele J1). apply Nat.ltb_lt in H. apply in_seq in I1.
  destruct (Nat.eqb_spec ie ele) as [Q|Q]; [contradiction|]. destruct (G ie ele) as [F|[F|[F|F]]]; [rewrite F in J2; contradiction|lia|lia|lia].
Qed.
Lemma quad_no_overlap : do_any_overlap 2 (quad 21) quad_cells (b_ve quad_backend quad_cells) = [].
Proof.
  assert (A : in_entity 2 (centroid 2 (pts_of (quad 21) [1;0;2]%nat)) (quad 21) [1;2;3]%nat = false).
  { unfold in_entity, centroid, pts_of, quad. cbn. rewrite (proj2 (Reqb_false _ 0)) by lra.
    unfold Rleb. repeat match goal with |- context [Rle_dec ?a ?b] => destruct (Rle_dec a b); cbn [andb] end; try reflexivity. exfalso. lra. }
  assert (B : in_entity 2 (centroid 2 (pts_of (quad 21) [1;2;3]%nat)) (quad 21) [1;0;2]%nat = false).
  { unfold in_entity, centroid, pts_of, quad. cbn. rewrite (proj2 (Reqb_false _ 0)) by lra.
    unfold Rleb. repeat match goal with |- context [Rle_dec ?a ?b] => destruct (Rle_dec a b); cbn [andb] end; try reflexivity. exfalso. lra. }
  assert (G : forall ie ele, in_entity 2 (centroid 2 (pts_of (quad 21) (nth ie quad_cells []))) (quad 21) (nth ele quad_cells []) = false \/ ie = ele \/ (2 <= ie)%nat \/ (2 <= ele)%nat).
  { intros [|[|ie]] [|[|ele]]; try (right; lia); left; [exact A|exact B]. }
  rewrite overlap_none; [reflexivity|vm_compute; reflexivity|exact G].
Qed.
Definition sq : pt -> R := d_eval (Rectangle 0 60 0 60 no_manip).
Lemma sq_eval x y : sq [x; y] = - Rmin (Rmin (Rmin y (60 - y)) x) (60 - x).
Proof.
  unfold sq, Rectangle. rewrite no_manip_eval. unfold c_drectangle. rewrite !stdmin_Rmin. replace (- 0 + y) with y by ring. replace (- 0 + x) with x by ring. reflexivity.
Qed.
Lemma sq_low x y : y <= 30 -> y <= x -> y <= 60 - x -> sq [x; y] = - y.
Proof. intros. rewrite sq_eval. rewrite (Rmin_left y), (Rmin_left y), (Rmin_left y) by lra. reflexivity. Qed.
Lemma sq_left x y : x <= 30 -> x <= y -> x <= 60 - y -> sq [x; y] = - x.
Proof. intros. rewrite sq_eval. rewrite (Rmin_right (Rmin y (60 - y)) x), (Rmin_left x) by (try lra; apply Rmin_glb; lra). reflexivity. Qed.
Lemma deps4 : 0 < deps_of 4 < 1 / 1000.
Proof. unfold deps_of. replace (2 ^ 26) with 67108864 by ring. lra. Qed.
Lemma drop_newton x y deps : 0 < deps < 1 / 1000 -> y <= 29 -> y < x - 1 / 1000 -> y < 60 - x - 1 / 1000 -> newton sq deps 1 [x; y] = [x; 0].
Proof.
  intros D Y X1 X2. assert (G : dgrads sq deps [x; y] = [0; -1]).
  { unfold dgrads, deps_vec. cbn [length seq map Nat.eqb].
    change (map2 Rplus [x; y] [deps; 0]) with [x + deps; y + 0]. change (map2 Rplus [x; y] [0; deps]) with [x + 0; y + deps]. rewrite !sq_low by lra. f_equal; [field; lra|]. f_equal. field. lra. }
  unfold newton. rewrite G. unfold dgrad2. rewrite (proj2 (Rltb_false _ deps)) by (cbn; lra). rewrite sq_low by lra.
  match goal with |- map2 ?f _ _ = _ => change ([f x 0; f y (-1)] = [x; 0]) end. cbn beta. cbn. f_equal; [field|f_equal; field].
Qed.
Lemma quad_boundary : get_boundary_vertices (b_uniqR quad_backend) 2 quad_cells = [0; 1; 2; 3]%nat.
Proof. vm_compute. reflexivity. Qed.
Lemma quad_moved : improve_level_set (b_uniqR quad_backend) sq (deps_of 4) 2 (quad 21) quad_cells = Ok (quad 0).
Proof.
  pose proof deps4 as D. unfold improve_level_set. rewrite quad_boundary. f_equal.
  set (q := improve_loop _ _ _ _ _ _). destruct (improve_loop_spec sq (deps_of 4) [0;1;2;3]%nat (seq 0 5) 1 (quad 21)) as (S1 & _ & S3 & _). fold q in S1, S3.
  assert (V : forall v, (v < 3)%nat -> nth v q [] = nth v (quad 21) []).
  { intros v L. apply S3; [cbn; lia|cbn; lia|]. destruct v as [|[|[|v]]]; [| | |lia]; unfold quad; cbn [nth]; [rewrite sq_low by lra|rewrite sq_left by lra|rewrite sq_low by lra]; ring. }
  assert (W : nth 3 q [] = [22; 0]).
  { assert (N : newton sq (deps_of 4) 1 (nth 3 (quad 21) []) = [22; 0]) by (unfold quad; cbn [nth]; apply drop_newton; lra).
    rewrite <- N. apply improve_loop_first; [cbn; lia|cbn; lia|]. rewrite N, sq_low by lra. ring. }
  pose proof (V 0%nat ltac:(lia)) as V0. pose proof (V 1%nat ltac:(lia)) as V1. pose proof (V 2%nat ltac:(lia)) as V2.
  clearbody q. destruct q as [|a [|b [|c [|e [|]]]]]; try discriminate S1. cbn [nth] in *. subst. reflexivity.
Qed.
Lemma quad_inside y : 0 <= y <= 21 -> forall geps, 0 < geps < 5 -> remove_outside 2 sq geps (quad y) quad_cells = quad_cells.
Proof.
  intros Y geps G. unfold remove_outside, quad_cells, centroid, pts_of, quad. cbn [map filter nth seq fold_right].
  match goal with |- context [Rltb (sq [?a; ?b]) _] => assert (sq [a; b] < - geps) as E1 by (rewrite sq_low by (cbn; lra); cbn; lra) end.
  rewrite (proj2 (Rltb_true _ _) E1).
  match goal with |- context [Rltb (sq [?a; ?b]) _] => assert (sq [a; b] < - geps) as E2 by (rewrite sq_low by (cbn; lra); cbn; lra) end.
  rewrite (proj2 (Rltb_true _ _) E2). reflexivity.
Qed.
Lemma quad_linter mq : mq <= 15 / 100 -> linter quad_backend 2 mq (quad 21) quad_cells = Ok (quad 21, quad_cells).
Proof.
  intros M. unfold linter. rewrite quad_no_overlap.
  assert (drop_rows (lint_delete (quad 21) quad_cells []) quad_cells = quad_cells) as -> by reflexivity. rewrite quad_fix. cbn [rbind fst snd Nat.eqb].
  rewrite quad_delete by exact M. cbn [rbind fst snd].
  match goal with |- context [is_manifold ?a ?b ?c ?d] => let v := eval vm_compute in (is_manifold a b c d) in change (is_manifold a b c d) with v end.
  reflexivity.
Qed.
Lemma quad_run : generate_mesh quad_backend square (SScalar 4) quad_opts 1 = Some (Ok (quad 0, quad_cells), 1%nat).
Proof.
  pose proof deps4 as D. unfold generate_mesh, prepare.
  assert (full_bbox square (SScalar 4) = [0; 60; 0; 60]) as -> by (unfold full_bbox, square; cbn [size_bbox dom_bbox]; apply no_manip_bbox).
  cbn [meshed_fd size_bbox the_h0 size_hmin dom_fd square length Nat.div2 Nat.eqb orb negb start_points quad_opts o_points rbind o_max_iter o_geps_mult o_delta_t o_subdomains o_perform_checks o_mesh_improvement].
  rewrite (proj2 (Rltb_false 4 0)), (proj2 (Rltb_false 1 0)) by lra. unfold quad at 1. cbn [mesh_loop b_tri quad_backend]. unfold quad at 1. cbv iota.
  cbn [g_dim g_fd g_geps g_max_iter]. fold sq. fold quad_backend.
  rewrite quad_inside by lra. rewrite (proj2 (Reqb_true (INR 0) (1 - 1))) by (cbn; ring). f_equal. f_equal.
  unfold finish. cbn [g_dim g_fd g_subs g_improve g_checks g_deps g_h0]. unfold termination. cbn [Nat.eqb].
  rewrite quad_fix. cbn [rbind fst snd]. rewrite quad_delete by lra. cbn [rbind fst snd b_solve quad_backend]. fold quad_backend. rewrite quad_linter by lra.
  cbn [rbind fst snd]. rewrite quad_moved. cbn [rbind]. rewrite quad_inside by lra. reflexivity.
Qed.
(** a point strictly inside the triangle x y z *)
Definition within (q : R * R) (x y z : pt) : Prop := exists a b c, 0 < a /\ 0 < b /\ 0 < c /\ a + b + c = 1 /\
  fst q = a * nth 0 x 0 + b * nth 0 y 0 + c * nth 0 z 0 /\ snd q = a * nth 1 x 0 + b * nth 1 y 0 + c * nth 1 z 0.
(** The square of side 60, four given points, one iteration, checks on.  The points are triangulated by two counter-clockwise triangles without
    overlap and of quality above 0.15, which is what the linter looks at; the corner (22, 21) is then pulled down to the side y = 0, and the mesh
    that is returned has a clockwise triangle that lies partly on top of the other one. *)
Theorem C111_inverted_refuted : exists B d o p t u,
  good_backend B /\ o_perform_checks o = true /\ generate_mesh B d (SScalar 4) o 1 = Some (Ok (p, t), 1%nat) /\
  linter B 2 (10 / 100) u t = Ok (u, t) /\ do_any_overlap 2 u t (b_ve B t) = [] /\ (forall r, In r t -> 0 < simp_vol (pts_of u r)) /\
  (exists r, In r t /\ simp_vol (pts_of p r) < 0) /\
  (exists x1 x2 x3 y1 y2 y3 q, t = [[x1; x2; x3]; [y1; y2; y3]] /\ within q (nth x1 p []) (nth x2 p []) (nth x3 p []) /\ within q (nth y1 p []) (nth y2 p []) (nth y3 p [])).
Proof.
  exists quad_backend, square, quad_opts, (quad 0), quad_cells, (quad 21). split; [split; apply nodup_uniq_ok|]. split; [reflexivity|]. split; [exact quad_run|].
  split; [apply quad_linter; lra|]. split; [exact quad_no_overlap|]. split; [|split].
  - intros r [<- | [<- | []]]; unfold pts_of, quad; cbn; lra.
  - exists [1;2;3]%nat. split; [right; left; reflexivity|]. unfold pts_of, quad. cbn. lra.
  - exists 1%nat, 0%nat, 2%nat, 1%nat, 2%nat, 3%nat, (46 / 3, 6). split; [reflexivity|]. unfold quad. cbn [nth]. split.
    + exists (1 / 3), (1 / 36), (23 / 36). cbn [fst snd nth]. lra.
    + exists (1 / 3), (1 / 3), (1 / 3). cbn [fst snd nth]. lra.
Qed.
Print Assumptions C111_inverted_refuted.
(** the run above meets the hypotheses of the two theorems, and the vertex that moved is on the boundary of its mesh and off the level set *)
Example C111_case : generate_mesh quad_backend square (SScalar 4) quad_opts 1 = Some (Ok (quad 0, quad_cells), 1%nat) /\ o_perform_checks quad_opts = true /\
  In 3%nat (get_boundary_vertices (b_uniqR quad_backend) 2 quad_cells) /\ sq (nth 3 (quad 21) []) = -21 /\ nth 3 (quad 0) [] <> nth 3 (quad 21) [].
Proof.
  split; [exact quad_run|]. split; [reflexivity|]. split; [rewrite quad_boundary; cbn; auto|]. unfold quad. cbn [nth]. split; [apply sq_low; lra|].
  intros E. injection E. lra.
Qed.

(** ---- and the mesh can be empty ---- *)
Definition low (y : R) : list pt := [[8; 0]; [12; 0]; [10; y]].
Definition low_backend : backend :=
  mkBackend (fun _ _ => (low 4, [[0;1;2]%nat])) (nodup key_dec) (nodup row_dec) (fun _ x => map up x) ve_pairs (fun p _ => p) (fun n => repeat 0 n).
Definition low_opts : gen_opts := mkOpts 1 true [] (Some (low 4)) (3 / 10) (1 / 10) None true false None.
Lemma low_fix : run_fix low_backend (low 4) [[0;1;2]%nat] = Ok (low 4, [[0;1;2]%nat]).
Proof.
  assert (O : map (orient (low 4)) [[0;1;2]%nat] = [[0;1;2]%nat]).
  { unfold low. cbn [map]. unfold orient. cbn [map nth]. rewrite (proj2 (Rltb_false _ _)); [reflexivity|]. cbn. lra. }
  transitivity (@Ok (list pt * list row) (low 4, map (orient (low 4)) [[0;1;2]%nat])); [|rewrite O; reflexivity]. clear O. unfold run_fix, fix_mesh.
  cbn [b_uniqK b_uniqR b_key low_backend low map find_pos]. rewrite !up_IZR.
  match goal with |- context [nodup key_dec ?l] => let v := eval vm_compute in (nodup key_dec l) in change (nodup key_dec l) with v end.
  vm_compute. reflexivity.
Qed.
Lemma low_quality : exists q, entity_qual (low 4) [[0;1;2]%nat] 0 = Some q /\ 15 / 100 <= q.
Proof.
  unfold entity_qual, low. cbn [nth map]. rewrite simp_qual_sides by reflexivity.
  assert (edist [12; 0] [8; 0] = 4) as -> by (apply side_len; lra).
  assert (B1 : 4 <= edist [10; 4] [8; 0] <= 5) by (unfold edist; apply sqrt_in; unfold sqdist; cbn; lra).
  assert (B2 : 4 <= edist [10; 4] [12; 0] <= 5) by (unfold edist; apply sqrt_in; unfold sqdist; cbn; lra).
  set (x := edist [10; 4] [8; 0]) in *. set (y := edist [10; 4] [12; 0]) in *. clearbody x y.
  apply quality_above; [lra|lra|lra|]. unfold mprod.
  apply Rle_trans with (15 / 100 * (4 * 5 * 5)).
  - apply Rmult_le_compat_l; [lra|]. repeat apply Rmult_le_compat; lra.
  - apply Rle_trans with (4 * 3 * 3); [lra|]. repeat apply Rmult_le_compat; lra.
Qed.
Lemma low_delete mq : mq <= 15 / 100 -> run_delete low_backend mq (low 4) [[0;1;2]%nat] = Ok (low 4, [[0;1;2]%nat]).
Proof.
  intros M. unfold run_delete, delete_boundary_entities. set (t := [[0;1;2]%nat]).
  assert (kept_rows (entity_qual (low 4) t) mq (get_boundary_entities (b_uniqR low_backend) 2 t (b_ve low_backend t)) t = t) as ->.
  { assert (get_boundary_entities (b_uniqR low_backend) 2 t (b_ve low_backend t) = [0]%nat) as -> by (vm_compute; reflexivity).
    unfold kept_rows. cbn [filter]. destruct low_quality as (q0 & Q & Q0). unfold t. rewrite Q.
    cbn [poor]. rewrite (proj2 (Rltb_false q0 mq)) by lra. reflexivity. }
  pose proof low_fix as F. unfold run_fix in F. exact F.
Qed.
Lemma low_no_overlap : do_any_overlap 2 (low 4) [[0;1;2]%nat] (b_ve low_backend [[0;1;2]%nat]) = [].
Proof. apply overlap_none; [vm_compute; reflexivity|]. intros ie ele. cbn [length]. right. lia. Qed.
Lemma low_linter mq : mq <= 15 / 100 -> linter low_backend 2 mq (low 4) [[0;1;2]%nat] = Ok (low 4, [[0;1;2]%nat]).
Proof.
  intros M. unfold linter. rewrite low_no_overlap.
  assert (drop_rows (lint_delete (low 4) [[0;1;2]%nat] []) [[0;1;2]%nat] = [[0;1;2]%nat]) as -> by reflexivity. rewrite low_fix. cbn [rbind fst snd Nat.eqb].
  rewrite low_delete by exact M. cbn [rbind fst snd].
  match goal with |- context [is_manifold ?a ?b ?c ?d] => let v := eval vm_compute in (is_manifold a b c d) in change (is_manifold a b c d) with v end.
  reflexivity.
Qed.
Lemma low_moved : improve_level_set (b_uniqR low_backend) sq (deps_of 4) 2 (low 4) [[0;1;2]%nat] = Ok (low 0).
Proof.
  pose proof deps4 as D. unfold improve_level_set.
  assert (get_boundary_vertices (b_uniqR low_backend) 2 [[0;1;2]%nat] = [0; 1; 2]%nat) as -> by (vm_compute; reflexivity). f_equal.
  set (q := improve_loop _ _ _ _ _ _). destruct (improve_loop_spec sq (deps_of 4) [0;1;2]%nat (seq 0 5) 1 (low 4)) as (S1 & _ & S3 & _). fold q in S1, S3.
  assert (V : forall v, (v < 2)%nat -> nth v q [] = nth v (low 4) []).
  { intros v L. apply S3; [cbn; lia|cbn; lia|]. destruct v as [|[|v]]; [| |lia]; unfold low; cbn [nth]; rewrite sq_low by lra; ring. }
  assert (W : nth 2 q [] = [10; 0]).
  { assert (N : newton sq (deps_of 4) 1 (nth 2 (low 4) []) = [10; 0]) by (unfold low; cbn [nth]; apply drop_newton; lra).
    rewrite <- N. apply improve_loop_first; [cbn; lia|cbn; lia|]. rewrite N, sq_low by lra. ring. }
  pose proof (V 0%nat ltac:(lia)) as V0. pose proof (V 1%nat ltac:(lia)) as V1.
  clearbody q. destruct q as [|a [|b [|c [|]]]]; try discriminate S1. cbn [nth] in *. subst. reflexivity.
Qed.
Lemma low_outside y geps : 0 <= y <= 4 -> remove_outside 2 sq geps (low y) [[0;1;2]%nat] = if Rltb (- (y / 3)) (- geps) then [[0;1;2]%nat] else [].
Proof.
  intros Y. unfold remove_outside, centroid, pts_of, low. cbn [map filter nth seq fold_right].
  match goal with |- context [Rltb (sq [?a; ?b]) _] => assert (sq [a; b] = - (y / 3)) as -> by (rewrite sq_low by (cbn; lra); cbn; field) end. reflexivity.
Qed.
(** one triangle, counter-clockwise and of quality above 0.15, standing on the side y = 0: its third corner is pulled down too and the mesh
    that is returned has no cell *)
Theorem C111_empty_refuted : exists B d o p u r,
  good_backend B /\ o_perform_checks o = true /\ generate_mesh B d (SScalar 4) o 1 = Some (Ok (p, []), 1%nat) /\
  linter B 2 (10 / 100) u [r] = Ok (u, [r]) /\ 0 < simp_vol (pts_of u r).
Proof.
  exists low_backend, square, low_opts, (low 0), (low 4), [0;1;2]%nat. split; [split; apply nodup_uniq_ok|]. split; [reflexivity|]. split; [|split].
  - pose proof deps4 as D. unfold generate_mesh, prepare.
    assert (full_bbox square (SScalar 4) = [0; 60; 0; 60]) as -> by (unfold full_bbox, square; cbn [size_bbox dom_bbox]; apply no_manip_bbox).
    cbn [meshed_fd size_bbox the_h0 size_hmin dom_fd square length Nat.div2 Nat.eqb orb negb start_points low_opts o_points rbind o_max_iter o_geps_mult o_delta_t o_subdomains o_perform_checks o_mesh_improvement].
    rewrite (proj2 (Rltb_false 4 0)), (proj2 (Rltb_false 1 0)) by lra. unfold low at 1. cbn [mesh_loop b_tri low_backend]. unfold low at 1. cbv iota.
    cbn [g_dim g_fd g_geps g_max_iter]. fold sq. fold low_backend.
    rewrite low_outside, (proj2 (Rltb_true _ _)) by lra. rewrite (proj2 (Reqb_true (INR 0) (1 - 1))) by (cbn; ring). f_equal. f_equal.
    unfold finish. cbn [g_dim g_fd g_subs g_improve g_checks g_deps g_h0]. unfold termination. cbn [Nat.eqb].
    rewrite low_fix. cbn [rbind fst snd]. rewrite low_delete by lra. cbn [rbind fst snd b_solve low_backend]. fold low_backend. rewrite low_linter by lra.
    cbn [rbind fst snd]. rewrite low_moved. cbn [rbind]. rewrite low_outside, (proj2 (Rltb_false _ _)) by lra. reflexivity.
  - apply low_linter. lra.
  - unfold pts_of, low. cbn. lra.
Qed.
Print Assumptions C111_empty_refuted.
