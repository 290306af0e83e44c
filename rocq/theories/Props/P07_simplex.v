(** C43-C50: formulas on one simplex, overlap detection, radius-edge ratios. *)
From Coq Require Import List ZArith Reals Bool Arith Lia Lra Permutation.
From Verif Require Import Model.Base Model.SDF Model.Simplex Model.Mesh Model.Formulas Spec.Geom Spec.Linear Spec.MeshTopo
  Proofs.ListAux Proofs.Euclid Proofs.SimplexProofs Proofs.FormulaProofs Proofs.CircumProofs Proofs.PointInProofs Proofs.OverlapProofs Proofs.RatioProofs.
Import ListNotations.
Local Open Scope R_scope.

(** ---- C43; [None] would be NaN ---- *)
Theorem C43_range : forall x0 y0 x1 y1 x2 y2, simp_vol [[x0;y0];[x1;y1];[x2;y2]] <> 0 ->
  exists q, simp_qual [[x0;y0];[x1;y1];[x2;y2]] = Some q /\ 0 < q <= 1 /\
   (q = 1 <-> edist [x0;y0] [x1;y1] = edist [x1;y1] [x2;y2] /\ edist [x1;y1] [x2;y2] = edist [x2;y2] [x0;y0]).
Proof. exact qual_range. Qed.
Print Assumptions C43_range.
(** any map multiplying distances by a constant s: translations, rotations, reflections, scalings and their combinations *)
Theorem C43_similarity : forall (f : list R -> list R) s p q r, 0 < s -> length p = length q -> length q = length r ->
  (forall x y, In x [p;q;r] -> In y [p;q;r] -> length (f x) = length (f y) /\ edist (f x) (f y) = s * edist x y) ->
  simp_qual [f p; f q; f r] = simp_qual [p; q; r].
Proof. exact qual_similarity. Qed.
Print Assumptions C43_similarity.
Theorem C43_corner_order : forall p q r s, length p = length q -> length q = length r -> Permutation s [p; q; r] -> simp_qual s = simp_qual [p; q; r].
Proof. exact qual_perm. Qed.
Print Assumptions C43_corner_order.
(** the half-square has quality < 1; a quarter turn with doubling is a similarity *)
Example C43_case : (exists q, simp_qual [[0;0];[1;0];[0;1]] = Some q /\ 0 < q < 1) /\
  forall x y x' y', edist [- (2 * y); 2 * x] [- (2 * y'); 2 * x'] = 2 * edist [x; y] [x'; y'].
Proof.
  split.
  - destruct (C43_range 0 0 1 0 0 1) as [q [E [R Q]]]; [cbn; lra|]. exists q. split; [exact E|]. split; [lra|].
    destruct (Rlt_dec q 1) as [L|L]; [exact L|]. assert (q = 1) as K by lra. apply Q in K. destruct K as [K _]. exfalso.
    unfold edist in K. cbn in K. apply (f_equal (fun z => z * z)) in K. rewrite !sqrt_sqrt in K by lra. lra.
  - intros. unfold edist. cbn [sqdist]. set (Y := (x - x') ^ 2 + ((y - y') ^ 2 + 0)).
    match goal with |- sqrt ?z = _ => replace z with (2 * 2 * Y) by (unfold Y; ring) end. rewrite sqrt_mult_alt, sqrt_square by lra. reflexivity.
Qed.

(** ---- C44: [simplex_points d s]: s is d+1 points of d coordinates ---- *)
Theorem C44_swap : forall d s i j, d = 2%nat \/ d = 3%nat -> simplex_points d s -> (i < S d)%nat -> (j < S d)%nat -> i <> j ->
  simp_vol (upd (upd s i (nth j s [])) j (nth i s [])) = - simp_vol s.
Proof. exact vol_exchange. Qed.
Print Assumptions C44_swap.
Theorem C44_translation : forall d s h, d = 2%nat \/ d = 3%nat -> simplex_points d s -> length h = d -> simp_vol (map (vplus h) s) = simp_vol s.
Proof. exact vol_translate. Qed.
Print Assumptions C44_translation.
Theorem C44_scaling : forall d s c, d = 2%nat \/ d = 3%nat -> simplex_points d s -> simp_vol (map (vtimes c) s) = c ^ d * simp_vol s.
Proof. exact vol_scale. Qed.
Print Assumptions C44_scaling.
(** replacing corner i by q, for i = 0, ..., d *)
Theorem C44_split : forall d s q, d = 2%nat \/ d = 3%nat -> simplex_points d s -> length q = d ->
  fold_right Rplus 0 (map (fun i => simp_vol (upd s i q)) (seq 0 (S d))) = simp_vol s.
Proof. exact vol_split. Qed.
Print Assumptions C44_split.
(** under every affine map volumes are multiplied by the determinant; with the standard simplices this fixes simp_vol *)
Theorem C44_affine : forall d s m b, d = 2%nat \/ d = 3%nat -> simplex_points d s -> length m = (d * d)%nat -> length b = d ->
  simp_vol (map (fun q => vplus (apply_matrix d m q) b) s) = leibniz d m * simp_vol s.
Proof. exact vol_affine. Qed.
Print Assumptions C44_affine.
Example C44_case : simp_vol [[0;0];[1;0];[0;1]] = 1 / 2 /\ simp_vol [[0;0;0];[1;0;0];[0;1;0];[0;0;1]] = 1 / 6 /\
  simplex_points 2 [[0;0];[1;0];[0;1]] /\ simplex_points 3 [[0;0;0];[1;0;0];[0;1;0];[0;0;1]].
Proof. repeat split; try (cbn; lra); repeat (apply Forall_cons; [reflexivity|]); apply Forall_nil. Qed.

(** ---- C45 ---- *)
Theorem C45_3x3 : forall m, length m = 9%nat -> det3 m = leibniz 3 m.
Proof. exact det3_leibniz. Qed.
Print Assumptions C45_3x3.
Theorem C45_4x4 : forall m, length m = 16%nat -> det4 m = leibniz 4 m.
Proof. exact det4_leibniz. Qed.
Print Assumptions C45_4x4.
(** [permutations] in Leibniz' formula lists each permutation exactly once *)
Theorem C45_all_permutations : forall n s, (In s (permutations (seq 0 n)) <-> Permutation (seq 0 n) s) /\ NoDup (permutations (seq 0 n)).
Proof. intros n s. split; [apply permutations_spec|apply permutations_nodup, seq_NoDup]. Qed.
Print Assumptions C45_all_permutations.
Theorem C45_volume : forall s, simplex_points 3 s -> det4 (concat (map (fun p => p ++ [1]) s)) = - 6 * simp_vol s.
Proof. exact det4_vol. Qed.
Print Assumptions C45_volume.
Example C45_case : det3 [1;2;3;0;4;5;0;0;6] = 24 /\ det4 [0;1;0;0; 1;0;0;0; 0;0;1;0; 0;0;0;1] = -1.
Proof. cbn. lra. Qed.

(** ---- C46 ---- *)
Theorem C46_volume_grad : forall p0 p1 p2 p3 h, simplex_points 3 [p0; p1; p2; p3] -> length h = 3%nat ->
  simp_vol [vplus p0 h; p1; p2; p3] = simp_vol [p0; p1; p2; p3] - inner (volume_grad p1 p2 p3) h.
Proof. exact volume_grad_exact. Qed.
Print Assumptions C46_volume_grad.
Example C46_case : volume_grad [1;0;0] [0;1;0] [0;0;1] = [1 / 6; 1 / 6; 1 / 6].
Proof. cbn. repeat (f_equal; try field). Qed.

(** ---- C47: f t is the squared circumradius of the tetrahedron whose first corner moved by t h ---- *)
Theorem C47_circumsphere_grad : forall p0 p1 p2 p3 h f, simplex_points 3 [p0; p1; p2; p3] -> length h = 3%nat -> simp_vol [p0; p1; p2; p3] <> 0 ->
  (forall t, simp_vol [vplus p0 (vtimes t h); p1; p2; p3] <> 0 -> exists c, circumscribed [vplus p0 (vtimes t h); p1; p2; p3] c (f t)) ->
  derivable_pt_lim f 0 (inner (circumsphere_grad p0 p1 p2 p3) h).
Proof. exact circumsphere_grad_right. Qed.
Print Assumptions C47_circumsphere_grad.
(** every non-degenerate tetrahedron has exactly one circumscribed sphere, so that such an f exists *)
Theorem C47_one_sphere : forall s, simplex_points 3 s -> simp_vol s <> 0 ->
  (exists c r2, circumscribed s c r2) /\ forall c r2 c' r2', circumscribed s c r2 -> circumscribed s c' r2' -> r2 = r2'.
Proof. intros s H N. split; [apply circ_total; assumption|]. intros. eapply circ_unique; eauto. Qed.
Print Assumptions C47_one_sphere.
Example C47_case : circumscribed [[0;0;0];[1;0;0];[0;1;0];[0;0;1]] [1/2;1/2;1/2] (3 / 4) /\
  exists g, circumsphere_grad [0;0;0] [1;0;0] [0;1;0] [0;0;1] = g /\ inner g [1;1;1] = 3 / 2.
Proof.
  split; [unfold circumscribed; repeat (apply Forall_cons; [split; [reflexivity|cbn; lra]|]); apply Forall_nil|].
  eexists. split; [reflexivity|]. cbn. field.
Qed.

(** ---- C48 ---- *)
Theorem C48_triangle : forall s q, simplex_points 2 s -> length q = 2%nat ->
  (simp_vol s <> 0 -> (vertex_in_entity2 q (concat s) = true <-> in_hull 2 s q)) /\
  (simp_vol s = 0 -> vertex_in_entity2 q (concat s) = false).
Proof. intros s q H L. split; [apply in2_spec|apply in2_degenerate]; assumption. Qed.
Print Assumptions C48_triangle.
Theorem C48_tetrahedron : forall s q, simplex_points 3 s -> length q = 3%nat ->
  (vertex_in_entity3 q (concat s) = true <-> simp_vol s <> 0 /\ in_open_hull 3 s q).
Proof. exact in3_spec. Qed.
Print Assumptions C48_tetrahedron.
(** a corner belongs to the triangle but not to the tetrahedron *)
Theorem C48_corner_differs :
  vertex_in_entity2 [0;0] [0;0;1;0;0;1] = true /\ vertex_in_entity3 [0;0;0] [0;0;0;1;0;0;0;1;0;0;0;1] = false.
Proof.
  split.
  - apply (proj1 (C48_triangle [[0;0];[1;0];[0;1]] [0;0] (proj1 (proj2 (proj2 C44_case))) eq_refl)); [cbn; lra|].
    exists [1; 0; 0]. split; [reflexivity|]. split; [repeat (apply Forall_cons; [lra|]); apply Forall_nil|]. split; [cbn; lra|]. cbn. f_equal; [|f_equal]; lra.
  - destruct (vertex_in_entity3 [0;0;0] [0;0;0;1;0;0;0;1;0;0;0;1]) eqn:E; [|reflexivity]. exfalso.
    apply (C48_tetrahedron [[0;0;0];[1;0;0];[0;1;0];[0;0;1]] [0;0;0] (proj2 (proj2 (proj2 C44_case))) eq_refl) in E.
    destruct E as [_ E]. unfold in_open_hull in E. rewrite in_hull4 in E. destruct E as [a [b [c [d [Ha [Hb [Hc [Hd [T E]]]]]]]]]. cbn in E. inversion E. lra.
Qed.
Print Assumptions C48_corner_differs.

(** ---- C49: [ve] is any order of the (vertex, entity) pairs sorted by vertex ---- *)
Definition overlap_mesh (dim : nat) (p : list (list R)) (t : list (list nat)) (ve : list (nat * nat)) : Prop :=
  (dim = 2 \/ dim = 3)%nat /\ Permutation ve (ve_pairs t) /\ ascending (map fst ve) /\
  (forall r, In r t -> simplex (S dim) r) /\ (forall v, (v < length p)%nat <-> exists r, In r t /\ In v r) /\ (forall q, In q p -> length q = dim).
Lemma overlap_points dim p t ve i : overlap_mesh dim p t ve -> (i < length t)%nat -> simplex_points dim (pts_of p (nth i t [])).
Proof.
  intros [_ [_ [_ [HS [HU HL]]]]] Hi. assert (In (nth i t []) t) as I by (apply nth_In, Hi). split; [unfold pts_of; rewrite map_length; apply HS, I|].
  apply Forall_forall. intros q Hq. apply in_map_iff in Hq. destruct Hq as [v [<- Hv]]. apply HL, nth_In, HU. exists (nth i t []). tauto.
Qed.
Theorem C49_exactly : forall dim p t ve i j, overlap_mesh dim p t ve ->
  (In (i, j) (do_any_overlap dim p t ve) <->
   (i < length t)%nat /\ (j < length t)%nat /\ i <> j /\ (exists v, In v (nth i t []) /\ In v (nth j t [])) /\
   let s := map (fun v => nth v p []) (nth i t []) in let s' := map (fun v => nth v p []) (nth j t []) in
   simp_vol s' <> 0 /\ (if (dim =? 2)%nat then in_hull dim s' (mean dim s) else in_open_hull dim s' (mean dim s))).
Proof.
  intros dim p t ve i j HM. pose proof HM as [D [HP [HA [HS [HU HL]]]]].
  rewrite (overlap_in dim (length p) p t ve HP HA HU (fun r Hr => proj2 (HS r Hr)) i j). cbv zeta. fold (pts_of p (nth i t [])) (pts_of p (nth j t [])).
  split; intros [A [B [C [E F]]]]; repeat (split; [assumption|]).
  - pose proof (overlap_points dim p t ve i HM A) as S1. pose proof (overlap_points dim p t ve j HM B) as S2. rewrite centroid_mean in F by assumption.
    pose proof (mean_length dim _ D S1) as LM. unfold in_entity in F. destruct D as [-> | ->]; cbn [Nat.eqb] in *.
    + destruct (Req_dec (simp_vol (pts_of p (nth j t []))) 0) as [Z|N]; [rewrite (proj2 (C48_triangle _ _ S2 LM) Z) in F; discriminate|].
      split; [exact N|]. apply (proj1 (C48_triangle _ _ S2 LM) N), F.
    + apply (C48_tetrahedron _ _ S2 LM), F.
  - pose proof (overlap_points dim p t ve i HM A) as S1. pose proof (overlap_points dim p t ve j HM B) as S2. rewrite centroid_mean by assumption.
    pose proof (mean_length dim _ D S1) as LM. unfold in_entity. destruct D as [-> | ->]; cbn [Nat.eqb] in *.
    + apply (proj1 (C48_triangle _ _ S2 LM) (proj1 F)), F.
    + apply (C48_tetrahedron _ _ S2 LM), F.
Qed.
Print Assumptions C49_exactly.
(** each pair is reported as many times as the two entities have common vertices *)
Theorem C49_multiplicity : forall dim p t ve i j, overlap_mesh dim p t ve -> In (i, j) (do_any_overlap dim p t ve) ->
  count_occ pair_dec (do_any_overlap dim p t ve) (i, j) = length (filter (has (nth j t [])) (nth i t [])).
Proof.
  intros dim p t ve i j HM I. pose proof HM as [D [HP [HA [HS [HU HL]]]]]. rewrite (overlap_count dim (length p) p t ve HP HA HU (fun r Hr => proj2 (HS r Hr)) i j).
  rewrite (overlap_in dim (length p) p t ve HP HA HU (fun r Hr => proj2 (HS r Hr)) i j) in I. destruct I as [A [B [C [_ E]]]].
  apply Nat.ltb_lt in A, B. apply Nat.eqb_neq in C. rewrite A, B, C, E. reflexivity.
Qed.
Print Assumptions C49_multiplicity.
(** nothing is reported for non-degenerate entities with pairwise disjoint interiors *)
Theorem C49_no_false_alarm : forall dim p t ve, overlap_mesh dim p t ve ->
  (forall i, (i < length t)%nat -> simp_vol (map (fun v => nth v p []) (nth i t [])) <> 0) ->
  (forall i j, (i < length t)%nat -> (j < length t)%nat -> i <> j ->
     forall q, ~ (in_open_hull dim (map (fun v => nth v p []) (nth i t [])) q /\ in_open_hull dim (map (fun v => nth v p []) (nth j t [])) q)) ->
  do_any_overlap dim p t ve = [].
Proof.
  intros dim p t ve HM NV DI. destruct (do_any_overlap dim p t ve) as [|[i j] l] eqn:E; [reflexivity|]. exfalso.
  assert (In (i, j) (do_any_overlap dim p t ve)) as I by (rewrite E; left; reflexivity). apply (C49_exactly dim p t ve i j HM) in I.
  destruct I as [A [B [C [_ [N H]]]]]. pose proof (overlap_points dim p t ve i HM A) as S1. pose proof (overlap_points dim p t ve j HM B) as S2.
  pose proof (proj1 HM) as D. pose proof (mean_open dim _ D S1) as MO. unfold pts_of in *. destruct D as [-> | ->]; cbn [Nat.eqb] in H.
  - destruct (hulls_meet _ _ _ S1 S2 (NV i A) MO H) as [z Hz]. exact (DI i j A B C z Hz).
  - exact (DI i j A B C _ (conj MO H)).
Qed.
Print Assumptions C49_no_false_alarm.
(** two slim triangles crossing near their common corner *)
Definition slim_p : list (list R) := [[0;0];[10;0];[0;1];[0;10];[1;0]].
Definition slim_t : list (list nat) := [[0;1;2];[0;3;4]]%nat.
Definition slim_ve : list (nat * nat) := [(0,0);(0,1);(1,0);(2,0);(3,1);(4,1)]%nat.
Lemma slim_mesh : overlap_mesh 2 slim_p slim_t slim_ve.
Proof.
  split; [left; reflexivity|]. split.
  { unfold slim_ve, ve_pairs, slim_t. cbn. apply perm_skip. change [(1, 0); (2, 0); (0, 1); (3, 1); (4, 1)]%nat with ([(1, 0); (2, 0)] ++ (0, 1) :: [(3, 1); (4, 1)])%nat.
    apply Permutation_cons_app. reflexivity. }
  split; [cbn; lia|]. split.
  { intros r [<- | [<- | []]]; (split; [reflexivity|]); repeat (apply NoDup_cons; [cbn; lia|]); apply NoDup_nil. }
  split.
  - intros v. cbn [length slim_p]. split.
    + intros H. destruct v as [|[|[|[|[|v]]]]]; [exists [0;1;2]%nat|exists [0;1;2]%nat|exists [0;1;2]%nat|exists [0;3;4]%nat|exists [0;3;4]%nat|lia]; cbn; tauto.
    + intros [r [[<- | [<- | []]] Hv]]; cbn in *; lia.
  - intros q Hq. cbn in Hq. intuition; subst; reflexivity.
Qed.
Theorem C49_misses_overlap : exists p t ve q, overlap_mesh 2 p t ve /\
  in_open_hull 2 (map (fun v => nth v p []) (nth 0 t [])) q /\ in_open_hull 2 (map (fun v => nth v p []) (nth 1 t [])) q /\
  do_any_overlap 2 p t ve = [].
Proof.
  exists slim_p, slim_t, slim_ve, [1/10; 1/10]. split; [exact slim_mesh|].
  unfold in_open_hull, slim_p, slim_t. cbn [nth map]. rewrite !in_hull3. split; [|split].
  - exists (89/100), (1/100), (1/10). repeat split; try lra. cbn. f_equal; [|f_equal]; lra.
  - exists (89/100), (1/100), (1/10). repeat split; try lra. cbn. f_equal; [|f_equal]; lra.
  - destruct (do_any_overlap 2 [[0; 0]; [10; 0]; [0; 1]; [0; 10]; [1; 0]] [[0%nat; 1%nat; 2%nat]; [0%nat; 3%nat; 4%nat]] slim_ve) as [|[i j] l] eqn:E; [reflexivity|]. exfalso.
    assert (In (i, j) (do_any_overlap 2 slim_p slim_t slim_ve)) as I by (unfold slim_p, slim_t; rewrite E; left; reflexivity).
    apply (C49_exactly 2 slim_p slim_t slim_ve i j slim_mesh) in I. destruct I as [A [B [C [_ [_ H]]]]]. cbn [slim_t length] in A, B.
    unfold slim_p, slim_t in H. cbn [Nat.eqb] in H. unfold in_hull in H.
    destruct i as [|[|i]]; [destruct j as [|[|j]]; [lia| |lia]|destruct j as [|[|j]]; [|lia|lia]|lia];
      cbn [nth map] in H; rewrite in_hull3 in H; destruct H as [a [b [c [Ha [Hb [Hc [T H]]]]]]]; unfold mean in H; cbn in H; inversion H; lra.
Qed.
Print Assumptions C49_misses_overlap.
(** a triangle inside another, with one common corner, is reported *)
Example C49_case : let p := [[0;0];[3;0];[0;3];[2;1];[1;2]] in overlap_mesh 2 p slim_t slim_ve /\ In (0, 1)%nat (do_any_overlap 2 p slim_t slim_ve).
Proof.
  cbv zeta. assert (overlap_mesh 2 [[0;0];[3;0];[0;3];[2;1];[1;2]] slim_t slim_ve) as M.
  { destruct slim_mesh as [D [HP [HA [HS [HU HL]]]]]. repeat (split; [assumption|]). intros q Hq. cbn in Hq. intuition; subst; reflexivity. }
  split; [exact M|]. apply (C49_exactly _ _ _ _ _ _ M). cbn [slim_t length nth]. split; [lia|]. split; [lia|]. split; [lia|]. split; [exists 0%nat; cbn; tauto|].
  cbn [map nth Nat.eqb]. split; [cbn; lra|]. replace (mean 2 [[0;0];[3;0];[0;3]]) with [1;1] by (unfold mean; cbn; f_equal; [|f_equal]; lra).
  exists [1/3; 1/3; 1/3]. split; [reflexivity|]. split; [repeat (apply Forall_cons; [lra|]); apply Forall_nil|]. split; [cbn; lra|cbn; f_equal; [|f_equal]; lra].
Qed.

(** ---- C50: [ball s] is the squared radius CGAL computes for the corners s ---- *)
Theorem C50_tetrahedra : forall ball p t,
  (forall r, In r t -> length r = 4%nat /\ Forall (fun q => length q = 3%nat) (pts_of p r)) ->
  (forall r, In r t -> simp_vol (pts_of p r) <> 0 -> exists c, circumscribed (pts_of p r) c (ball (pts_of p r))) ->
  exists l, calc_re_ratios ball 3 p t = Ok l /\ length l = length t /\
  forall i c r2, (i < length t)%nat -> let r := nth i t [] in simp_vol (pts_of p r) <> 0 -> circumscribed (pts_of p r) c r2 ->
    exists m, nth i l 0 = sqrt r2 / m /\ (exists a b, edge_of r a b /\ m = edist (nth a p []) (nth b p [])) /\
      forall a b, edge_of r a b -> m <= edist (nth a p []) (nth b p []).
Proof.
  intros ball p t HS HB. destruct (ratios3 ball p t) as [l [E [L H]]]. exists l. split; [exact E|]. split; [exact L|].
  intros i c r2 Hi. cbv zeta. intros N C. assert (In (nth i t []) t) as I by (apply nth_In, Hi). destruct (HS _ I) as [L4 F].
  destruct (HB _ I N) as [c' C']. exists (min_edge p 3 (nth i t [])). split.
  - rewrite (H i Hi). f_equal. f_equal. apply (proj2 (C47_one_sphere (pts_of p (nth i t [])) ltac:(split; [unfold pts_of; rewrite map_length; exact L4|exact F]) N) _ _ _ _ C' C).
  - apply min_edge_spec; [right; reflexivity|exact L4|exact F].
Qed.
Print Assumptions C50_tetrahedra.
Theorem C50_triangles : forall ball p t,
  (length t <= 1 -> calc_re_ratios ball 2 p t = Ok [])%nat /\
  ((2 <= length t <= 3)%nat -> calc_re_ratios ball 2 p t = Ok (map (fun r => sqrt (ball (pts_of p (nth 0 t []))) / min_edge p 2 r) t)) /\
  (4 <= length t -> calc_re_ratios ball 2 p t = Err ValueError)%nat.
Proof.
  intros ball p t. rewrite ratios2. destruct t as [|e [|f [|g [|h t]]]]; cbn [length]; repeat split; intros; try lia; reflexivity.
Qed.
Print Assumptions C50_triangles.
Theorem C50_min_edge : forall p r, length r = 3%nat -> Forall (fun q => length q = 2%nat) (pts_of p r) ->
  (exists a b, edge_of r a b /\ min_edge p 2 r = edist (nth a p []) (nth b p [])) /\
  forall a b, edge_of r a b -> min_edge p 2 r <= edist (nth a p []) (nth b p []).
Proof. intros p r L F. apply min_edge_spec; [left; reflexivity|exact L|exact F]. Qed.
Print Assumptions C50_min_edge.
(** no tetrahedron has a smaller ratio than the regular one *)
Theorem C50_ratio_lower_bound : forall ball p t l,
  (forall r, In r t -> length r = 4%nat /\ Forall (fun q => length q = 3%nat) (pts_of p r)) ->
  (forall r, In r t -> simp_vol (pts_of p r) <> 0 -> exists c, circumscribed (pts_of p r) c (ball (pts_of p r))) ->
  calc_re_ratios ball 3 p t = Ok l ->
  forall i, (i < length t)%nat -> simp_vol (pts_of p (nth i t [])) <> 0 -> sqrt (3 / 8) <= nth i l 0.
Proof.
  intros ball p t l HS HB H i Hi V. destruct (ratios3 ball p t) as [l' [E [L Hn]]]. rewrite E in H. injection H as <-.
  assert (In (nth i t []) t) as I by (apply nth_In, Hi). destruct (HS _ I) as [L4 F]. destruct (HB _ I V) as [c C].
  destruct (ratio_bound p (nth i t []) c _ L4 F C V) as [P B]. rewrite (Hn i Hi). set (r2 := ball _) in *. set (m := min_edge _ _ _) in *.
  assert (0 <= r2) as R2. { pose proof (pow_lt m 2 P). lra. }
  apply Rmult_le_reg_r with m; [exact P|]. replace (sqrt r2 / m * m) with (sqrt r2) by (field; lra).
  rewrite <- (sqrt_pow2 m) by lra. rewrite <- sqrt_mult by (try apply pow_le; lra). apply sqrt_le_1_alt. lra.
Qed.
Print Assumptions C50_ratio_lower_bound.
(** a good ratio says nothing about slivers: edges at least 1, ratio at most sqrt(1/2), volume as small as you like *)
Theorem C50_slivers_unnoticed_refuted : forall eps, 0 < eps -> exists p, let t := [[0;1;2;3]%nat] in
  0 < Rabs (simp_vol (pts_of p [0;1;2;3]%nat)) < eps /\ (forall a b, edge_of [0;1;2;3]%nat a b -> 1 <= edist (nth a p []) (nth b p [])) /\
  forall ball, (exists c, circumscribed (pts_of p [0;1;2;3]%nat) c (ball (pts_of p [0;1;2;3]%nat))) ->
  exists x, calc_re_ratios ball 3 p t = Ok [x] /\ x <= sqrt (1 / 2).
Proof.
  intros eps P. set (h := Rmin (eps / 16) (1 / 2)). assert (H : 0 < h <= 1 / 2) by (unfold h, Rmin; destruct (Rle_dec _ _); lra).
  assert (He : 16 * h <= eps) by (unfold h, Rmin; destruct (Rle_dec _ _); lra). set (p := [[1;0;h];[-1;0;h];[0;1;-h];[0;-1;-h]]). exists p. cbv zeta.
  assert (V : 0 < Rabs (simp_vol (pts_of p [0;1;2;3]%nat)) <= 8 * h).
  { replace (simp_vol (pts_of p [0;1;2;3]%nat)) with (4 / 3 * h) by (cbn; lra). rewrite Rabs_right by lra. lra. }
  assert (L : length [0;1;2;3]%nat = 4%nat) by reflexivity.
  assert (F : Forall (fun q => length q = 3%nat) (pts_of p [0;1;2;3]%nat)) by (repeat (apply Forall_cons; [reflexivity|]); apply Forall_nil).
  assert (D : forall a b, edge_of [0;1;2;3]%nat a b -> 2 + 4 * (h * h) <= sqdist (nth a p []) (nth b p [])).
  { intros a b (i & j & I & J & N & <- & <-). cbn [length] in I, J. assert (h * h <= 1 / 4) by nra.
    destruct i as [|[|[|[|i]]]]; try lia; destruct j as [|[|[|[|j]]]]; try lia; cbn; lra. }
  split; [lra|]. split.
  - intros a b E. unfold edist. rewrite <- sqrt_1. apply sqrt_le_1_alt. pose proof (D a b E). nra.
  - intros ball B. assert (NV : simp_vol (pts_of p [0;1;2;3]%nat) <> 0) by (intro Z; rewrite Z, Rabs_R0 in V; lra).
    destruct (C50_tetrahedra ball p [[0;1;2;3]%nat]) as (l & E & Ll & Hl); [intros r [<-|[]]; split; assumption | intros r [<-|[]] _; exact B|].
    destruct l as [|x [|y l]]; cbn [length] in Ll; try lia. exists x. split; [exact E|].
    destruct (Hl 0%nat [0;0;0] (1 + h * h) ltac:(cbn; lia) NV) as (m & Xm & (a & b & Ea & Em) & _).
    { repeat (apply Forall_cons; [split; [reflexivity | cbn; lra]|]). apply Forall_nil. }
    cbn [nth] in Xm. rewrite Xm, Em. pose proof (D a b Ea) as Dm. unfold edist. assert (0 < sqdist (nth a p []) (nth b p [])) by nra.
    rewrite <- sqrt_div by nra. apply sqrt_le_1_alt. apply Rmult_le_reg_r with (sqdist (nth a p []) (nth b p [])); [assumption|].
    unfold Rdiv at 1. rewrite Rmult_assoc, Rinv_l by lra. nra.
Qed.
Print Assumptions C50_slivers_unnoticed_refuted.
(** a mesh of one tetrahedron: sqrt(3)/2 over 1 *)
Example C50_case : let p := [[0;0;0];[1;0;0];[0;1;0];[0;0;1]] in
  calc_re_ratios (fun _ => 3/4) 3 p [[0;1;2;3]%nat] = Ok [sqrt (3/4) / min_edge p 3 [0;1;2;3]%nat] /\
  simp_vol (pts_of p [0;1;2;3]%nat) <> 0 /\ circumscribed (pts_of p [0;1;2;3]%nat) [1/2;1/2;1/2] (3/4).
Proof. cbv zeta. split; [reflexivity|]. split; [cbn; lra|]. exact (proj1 C47_case). Qed.

(** ---- C76: for tetrahedra simp_qual looks at the face of the first three corners only ---- *)
Theorem C76_quality_ignores_last_corner : forall p q r s s', simp_qual [p; q; r; s] = simp_qual [p; q; r; s'] /\ simp_qual [p; q; r; s] = simp_qual [p; q; r].
Proof. intros. split; reflexivity. Qed.
Print Assumptions C76_quality_ignores_last_corner.
(** a flat tetrahedron may have quality 1 *)
Theorem C76_flat_tetrahedron_scores_1 : exists s, simplex_points 3 s /\ simp_vol s = 0 /\ simp_qual s = Some 1.
Proof.
  exists [[1;0;0];[0;1;0];[0;0;1];[1/3;1/3;1/3]]. split; [split; [reflexivity|repeat (apply Forall_cons; [reflexivity|]); apply Forall_nil]|].
  split; [cbn; lra|]. rewrite (simp_qual_sides [1;0;0] [0;1;0] [0;0;1] eq_refl eq_refl).
  assert (edist [0;1;0] [1;0;0] = sqrt 2) as E1 by (unfold edist; cbn; f_equal; lra).
  assert (edist [0;0;1] [1;0;0] = sqrt 2) as E2 by (unfold edist; cbn; f_equal; lra).
  assert (edist [0;0;1] [0;1;0] = sqrt 2) as E3 by (unfold edist; cbn; f_equal; lra).
  rewrite E1, E2, E3. assert (0 < sqrt 2) as P by (apply sqrt_lt_R0; lra). unfold qual_sides. rewrite (proj2 (Reqb_false (sqrt 2) 0)) by lra. cbn [orb].
  f_equal. unfold mprod. field. lra.
Qed.
Print Assumptions C76_flat_tetrahedron_scores_1.
