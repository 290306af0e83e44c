(** Every step of the generator in another unit of length. *)
From Coq Require Import Reals List Arith Bool ZArith Lia Lra.
From Verif Require Import Model.Base Model.SDF Model.Simplex Model.Mesh Model.Formulas Model.Laplace Model.Forces Model.Newton Model.InitGrid Model.Dihedral
  Model.Generator Spec.Scale Proofs.ListAux Proofs.SDFBox Props.P40_units.
Import ListNotations.
Local Open Scope R_scope.

Lemma find_pos_map {A B} (h : A -> B) f g l : (forall x, g (h x) = f x) -> find_pos g (map h l) = find_pos f l.
Proof. intros H. induction l as [|x l IH]; cbn; [reflexivity|]. rewrite H, IH. reflexivity. Qed.
Lemma filter_map' {A B} (h : A -> B) f g l : (forall x, g (h x) = f x) -> filter g (map h l) = map h (filter f l).
Proof. intros H. induction l as [|x l IH]; cbn; [reflexivity|]. rewrite H, IH. destruct (f x); reflexivity. Qed.
Lemma map2_map {A B C A' B' C'} (a : A -> A') (b : B -> B') (g : C -> C') (f : A -> B -> C) (f' : A' -> B' -> C') l : forall m,
  (forall x y, f' (a x) (b y) = g (f x y)) -> map2 f' (map a l) (map b m) = map g (map2 f l m).
Proof.
  intros m H. unfold map2. revert m. induction l as [|x l IH]; intros [|y m]; cbn; try reflexivity. rewrite H, IH. reflexivity.
Qed.
Lemma rtotal_scal k l : fold_right Rplus 0 (map (Rmult k) l) = k * fold_right Rplus 0 l.
Proof. induction l as [|x l IH]; cbn; [ring|]. rewrite IH. ring. Qed.
Lemma sqrt_sq k x : 0 <= k -> sqrt (k * k * x) = k * sqrt x.
Proof. intros K. rewrite sqrt_mult_alt by (apply Rle_0_sqr). rewrite sqrt_square by exact K. reflexivity. Qed.
Lemma rsign_scal k x : 0 < k -> rsign (k * x) = rsign x.
Proof. intros K. unfold rsign. rewrite (Rltb_scal0 k x K). replace (Rltb 0 (k * x)) with (Rltb 0 x); [reflexivity|]. symmetry. exact (Rgtb_scal0 k x K). Qed.
Lemma Rltb_scal0' k x : 0 < k -> Rltb 0 (k * x) = Rltb 0 x.
Proof. exact (Rgtb_scal0 k x). Qed.
Lemma Rleb_not x y : Rleb x y = negb (Rltb y x).
Proof. unfold Rleb, Rltb. destruct (Rle_dec x y), (Rlt_dec y x); cbn; try reflexivity; lra. Qed.
Lemma det4_len m : length m <> 16%nat -> det4 m = 0.
Proof.
  intros H. do 16 (destruct m as [|? m]; [reflexivity|]). destruct m; [exfalso; apply H; reflexivity|reflexivity].
Qed.

Ltac rhs_scp := match goal with |- _ = Scale.scp ?c ?X => change (Scale.scp c X) with (map (Scale.sc c) X) end.
Ltac rhs_sc := match goal with |- _ = Scale.sc ?c ?X => change (Scale.sc c X) with (map (Rmult c) X) end.

Section Scale.
Variable c : R.
Hypothesis C : 0 < c.
Notation sc := (sc c). Notation scp := (scp c).
Local Lemma C2 : 0 < c * c. Proof. nra. Qed.
Local Lemma C3 : 0 < c * c * c. Proof. pose proof C2. nra. Qed.

Lemma nth_sc i x : nth i (sc x) 0 = c * nth i x 0.
Proof. unfold Scale.sc. rewrite <- (Rmult_0_r c) at 1. apply map_nth. Qed.
Lemma nth_scp i p : nth i (scp p) [] = sc (nth i p []).
Proof. unfold Scale.scp. change (@nil R) with (sc []) at 1. apply map_nth. Qed.
Lemma length_sc x : length (sc x) = length x. Proof. apply map_length. Qed.
Lemma length_scp p : length (scp p) = length p. Proof. apply map_length. Qed.
Lemma pts_sc p r : pts_of (scp p) r = scp (pts_of p r).
Proof. unfold pts_of. rhs_scp. rewrite map_map. apply map_ext. intros v. apply nth_scp. Qed.
Lemma minus_sc p q : map2 Rminus (sc p) (sc q) = sc (map2 Rminus p q).
Proof. unfold Scale.sc. apply map2_map. intros; ring. Qed.
Lemma squares_sc x : map (fun d => d * d) (sc x) = map (Rmult (c * c)) (map (fun d => d * d) x).
Proof. unfold Scale.sc. rewrite !map_map. apply map_ext. intros; ring. Qed.
Lemma sub_len_sc p q : sub_len (sc p) (sc q) = c * sub_len p q.
Proof. unfold sub_len. rewrite minus_sc, squares_sc, rtotal_scal. apply sqrt_sq. lra. Qed.
Lemma sq2_sc p q : sq2 (sc p) (sc q) = c * c * sq2 p q.
Proof. unfold sq2, rtotal. rewrite minus_sc, squares_sc, rtotal_scal. reflexivity. Qed.
Lemma vol_sc s : exists k, 0 < k /\ simp_vol (scp s) = k * simp_vol s.
Proof.
  pose proof C2 as K2. pose proof C3 as K3. unfold Scale.scp, Scale.sc.
  destruct s as [|p q]; [exists 1; split; [lra|cbn; lra]|].
  destruct p as [|x0 [|y0 [|z0 [|w0 p]]]]; try (exists 1; split; [lra|cbn; lra]).
  - destruct q as [|p1 [|p2 [|p3 q]]]; try (exists 1; split; [lra|];
      try (destruct p1 as [|? [|? [|? ?]]]); try (destruct p2 as [|? [|? [|? ?]]]); cbn; lra).
    destruct p1 as [|x1 [|y1 [|? ?]]]; try (exists 1; split; [lra|cbn; lra]).
    destruct p2 as [|x2 [|y2 [|? ?]]]; try (exists 1; split; [lra|cbn; lra]).
    exists (c * c). split; [exact K2|]. cbn. field.
  - destruct q as [|p1 [|p2 [|p3 [|p4 q]]]]; try (exists 1; split; [lra|];
      try (destruct p1 as [|? [|? [|? [|? ?]]]]); try (destruct p2 as [|? [|? [|? [|? ?]]]]); try (destruct p3 as [|? [|? [|? [|? ?]]]]); cbn; lra).
    destruct p1 as [|x1 [|y1 [|z1 [|? ?]]]]; try (exists 1; split; [lra|cbn; lra]).
    destruct p2 as [|x2 [|y2 [|z2 [|? ?]]]]; try (exists 1; split; [lra|cbn; lra]).
    destruct p3 as [|x3 [|y3 [|z3 [|? ?]]]]; try (exists 1; split; [lra|cbn; lra]).
    exists (c * c * c). split; [exact K3|]. cbn. field.
Qed.
Lemma orient_sc p r : orient (scp p) r = orient p r.
Proof.
  unfold orient. fold (pts_of (scp p) r). fold (pts_of p r). rewrite pts_sc. destruct (vol_sc (pts_of p r)) as (k & K & E).
  rewrite E, Rltb_scal0 by exact K. reflexivity.
Qed.
Lemma qual_sc s : simp_qual (scp s) = simp_qual s.
Proof.
  unfold simp_qual. rewrite !nth_scp, !sub_len_sc, !Reqb_scal0 by exact C.
  set (x := sub_len (nth 1 s []) (nth 0 s [])). set (y := sub_len (nth 2 s []) (nth 0 s [])). set (z := sub_len (nth 2 s []) (nth 1 s [])).
  clearbody x y z.
  destruct (Reqb x 0 || Reqb y 0 || Reqb z 0)%bool; [reflexivity|].
  replace ((c * x + c * y + c * z) * (c * y + c * z - c * x) * (c * z + c * x - c * y) * (c * x + c * y - c * z))
    with (c * c * (c * c) * ((x + y + z) * (y + z - x) * (z + x - y) * (x + y - z))) by ring.
  set (h := (x + y + z) * (y + z - x) * (z + x - y) * (x + y - z)).
  assert (K : 0 < c * c * (c * c)) by (pose proof C2; nra).
  rewrite (Reqb_scal0 _ h K). destruct (Reqb h 0); [reflexivity|]. f_equal.
  replace ((c * y + c * z - c * x) * (c * z + c * x - c * y) * (c * x + c * y - c * z) / (c * x + c * y + c * z))
    with (c * c * ((y + z - x) * (z + x - y) * (x + y - z) / (x + y + z))).
  2: { replace ((c * y + c * z - c * x) * (c * z + c * x - c * y) * (c * x + c * y - c * z)) with (c * (c * c * ((y + z - x) * (z + x - y) * (x + y - z)))) by ring.
       replace (c * x + c * y + c * z) with (c * (x + y + z)) by ring. rewrite (div_scal c) by exact C. unfold Rdiv. ring. }
  rewrite (sqrt_sq c) by lra. rewrite (sqrt_sq (c * c) h) by (pose proof C2; lra).
  replace (c * x * (c * y) * (c * z) / (c * c * sqrt h)) with (c * (x * y * z / sqrt h)).
  2: { replace (c * x * (c * y) * (c * z)) with (c * c * (c * (x * y * z))) by ring. rewrite (div_scal (c * c)) by exact C2. unfold Rdiv. ring. }
  replace (2 * (5 / 10 * (c * sqrt ((y + z - x) * (z + x - y) * (x + y - z) / (x + y + z)))))
    with (c * (2 * (5 / 10 * sqrt ((y + z - x) * (z + x - y) * (x + y - z) / (x + y + z))))) by ring.
  rewrite (div_scal c) by exact C. reflexivity.
Qed.
Lemma entity_qual_sc p t e : entity_qual (scp p) t e = entity_qual p t e.
Proof. unfold entity_qual. fold (pts_of (scp p) (nth e t [])). rewrite pts_sc. apply qual_sc. Qed.
Lemma centroid_sc dim s : centroid dim (scp s) = sc (centroid dim s).
Proof.
  unfold centroid. rhs_sc. rewrite map_map. apply map_ext. intros j. unfold Rdiv. rewrite <- Rmult_assoc. f_equal.
  rewrite <- rtotal_scal. f_equal. unfold Scale.scp. rewrite !map_map. apply map_ext. intros q. apply nth_sc.
Qed.
Lemma remove_sc dim f g geps p t : same_length c f g -> remove_outside dim g (c * geps) (scp p) t = remove_outside dim f geps p t.
Proof.
  intros S. unfold remove_outside. apply filter_ext. intros r. rewrite pts_sc, centroid_sc, S.
  replace (- (c * geps)) with (c * - geps) by ring. apply Rltb_scal, C.
Qed.
Lemma in2_sc v e : vertex_in_entity2 (sc v) (sc e) = vertex_in_entity2 v e.
Proof.
  unfold Scale.sc. destruct v as [|x [|y [|? ?]]]; try reflexivity.
  destruct e as [|x1 [|y1 [|x2 [|y2 [|x3 [|y3 [|? ?]]]]]]]; try reflexivity. cbn [map vertex_in_entity2].
  replace ((c * y2 - c * y3) * (c * x1 - c * x3) + (c * x3 - c * x2) * (c * y1 - c * y3)) with (c * c * ((y2 - y3) * (x1 - x3) + (x3 - x2) * (y1 - y3))) by ring.
  replace ((c * y2 - c * y3) * (c * x - c * x3) + (c * x3 - c * x2) * (c * y - c * y3)) with (c * c * ((y2 - y3) * (x - x3) + (x3 - x2) * (y - y3))) by ring.
  replace ((c * y3 - c * y1) * (c * x - c * x3) + (c * x1 - c * x3) * (c * y - c * y3)) with (c * c * ((y3 - y1) * (x - x3) + (x1 - x3) * (y - y3))) by ring.
  rewrite !(div_scal (c * c)) by exact C2. rewrite (Reqb_scal0 (c * c)) by exact C2. reflexivity.
Qed.
Lemma in3_sc v e : vertex_in_entity3 (sc v) (sc e) = vertex_in_entity3 v e.
Proof.
  assert (G : forall a b d f, length a = 3%nat -> length b = 3%nat -> length d = 3%nat -> length f = 3%nat ->
    rsign (det4 (hom (sc a) ++ hom (sc b) ++ hom (sc d) ++ hom (sc f))) = rsign (det4 (hom a ++ hom b ++ hom d ++ hom f))).
  { intros a b d f A B D F. destruct a as [|? [|? [|? [|? ?]]]]; try discriminate A. destruct b as [|? [|? [|? [|? ?]]]]; try discriminate B.
    destruct d as [|? [|? [|? [|? ?]]]]; try discriminate D. destruct f as [|? [|? [|? [|? ?]]]]; try discriminate F.
    etransitivity; [|apply (rsign_scal (c * c * c)), C3]. f_equal. unfold Scale.sc. cbn [map hom app det4]. ring. }
  do 12 (destruct e as [|? e]; [reflexivity|]). destruct e; [|reflexivity]. 
  match goal with |- _ (sc v) (sc ?l) = _ => let m := eval cbn [Scale.sc map] in (sc l) in change (sc l) with m end. unfold vertex_in_entity3. cbv zeta.
  repeat match goal with |- context [[c * ?x; c * ?y; c * ?z]] => change [c * x; c * y; c * z] with (sc [x; y; z]) end.
  rewrite (G [r; r0; r1] [r2; r3; r4] [r5; r6; r7] [r8; r9; r10]) by reflexivity.
  destruct (Nat.eq_dec (length v) 3) as [L|L].
  - rewrite (G v), (G _ v), (G _ _ v), (G _ _ _ v) by (exact L || reflexivity). reflexivity.
  - assert (Z : forall k b d f, length k <> 3%nat -> length b = 3%nat -> length d = 3%nat -> length f = 3%nat -> det4 (hom k ++ hom b ++ hom d ++ hom f) = 0).
    { intros k b d f K B D F. apply det4_len. unfold hom. rewrite !app_length. cbn. lia. }
    rewrite (Z v), (Z (sc v)) by (rewrite ?length_sc; exact L || reflexivity).
    assert (Y : forall k, length k <> 3%nat -> det4 (hom [r; r0; r1] ++ hom k ++ hom [r5; r6; r7] ++ hom [r8; r9; r10]) = 0 /\
      det4 (hom [r; r0; r1] ++ hom [r2; r3; r4] ++ hom k ++ hom [r8; r9; r10]) = 0 /\ det4 (hom [r; r0; r1] ++ hom [r2; r3; r4] ++ hom [r5; r6; r7] ++ hom k) = 0).
    { intros k K. repeat split; apply det4_len; unfold hom; rewrite !app_length; cbn; lia. }
    assert (Y' : forall k, length k <> 3%nat -> det4 (hom (sc [r; r0; r1]) ++ hom k ++ hom (sc [r5; r6; r7]) ++ hom (sc [r8; r9; r10])) = 0 /\
      det4 (hom (sc [r; r0; r1]) ++ hom (sc [r2; r3; r4]) ++ hom k ++ hom (sc [r8; r9; r10])) = 0 /\ det4 (hom (sc [r; r0; r1]) ++ hom (sc [r2; r3; r4]) ++ hom (sc [r5; r6; r7]) ++ hom k) = 0).
    { intros k K. repeat split; apply det4_len; unfold hom; rewrite !app_length; cbn; lia. }
    destruct (Y v L) as (-> & -> & ->). destruct (Y' (sc v)) as (-> & -> & ->); [rewrite length_sc; exact L|]. reflexivity.
Qed.
Lemma concat_sc p : concat (scp p) = sc (concat p).
Proof. unfold Scale.scp, Scale.sc. symmetry. apply concat_map. Qed.
Lemma overlap_sc dim p t ve : do_any_overlap dim (scp p) t ve = do_any_overlap dim p t ve.
Proof.
  unfold do_any_overlap. destruct (vtoe_result ve) as (vtoe, ptr). apply flat_map_ext. intros ie. apply flat_map_ext. intros el.
  destruct (ie =? el)%nat; [reflexivity|]. replace (in_entity dim (centroid dim (pts_of (scp p) (nth ie t []))) (scp p) (nth el t []))
    with (in_entity dim (centroid dim (pts_of p (nth ie t []))) p (nth el t [])); [reflexivity|].
  unfold in_entity. rewrite !pts_sc, centroid_sc, concat_sc, in2_sc, in3_sc. reflexivity.
Qed.
Lemma select_sc ix p : map (fun i => nth i (scp p) []) ix = scp (map (fun i => nth i p []) ix).
Proof. exact (pts_sc p ix). Qed.

(** fix_mesh *)
Lemma fix_sc uK uR uK' uR' k k' p t : (forall l, uK' l = uK l) -> (forall l, uR' l = uR l) -> (forall x, k' (sc x) = k x) ->
  fix_mesh uK' uR' k' (scp p) t true true =
  match fix_mesh uK uR k p t true true with Ok (p', t', j) => Ok (scp p', t', j) | Err e => Err e end.
Proof.
  intros UK UR K. unfold fix_mesh. rewrite length_scp.
  assert (map k' (scp p) = map k p) as -> by (unfold Scale.scp; rewrite map_map; apply map_ext; exact K). rewrite UK.
  set (u := uK (map k p)).
  assert (map (fun q => find_pos (key_eqb (k' q)) u) (scp p) = map (fun q => find_pos (key_eqb (k q)) u) p) as ->.
  { unfold Scale.scp. rewrite map_map. apply map_ext. intros q. rewrite K. reflexivity. }
  assert (map (fun x => find_pos (fun q => key_eqb (k' q) x) (scp p)) u = map (fun x => find_pos (fun q => key_eqb (k q) x) p) u) as ->.
  { apply map_ext. intros x. apply find_pos_map. intros q. rewrite K. reflexivity. }
  destruct (length p =? 0)%nat; [reflexivity|]. destruct (valid_rows (length p) t); [|reflexivity]. rewrite UR.
  rewrite !select_sc. f_equal. f_equal. f_equal. apply map_ext. intros r. apply orient_sc.
Qed.

Section Backend.
Variables B B' : backend.
Hypothesis HB : same_backend c B B'.
Let Htri := proj1 HB.
Let Hkey := proj1 (proj2 HB).
Let Hsolve := proj1 (proj2 (proj2 HB)).
Let HuK := proj1 (proj2 (proj2 (proj2 HB))).
Let HuR := proj1 (proj2 (proj2 (proj2 (proj2 HB)))).
Let Hve := proj1 (proj2 (proj2 (proj2 (proj2 (proj2 HB))))).
Let Hrand := proj2 (proj2 (proj2 (proj2 (proj2 (proj2 HB))))).

Lemma run_fix_sc p t : run_fix B' (scp p) t = sc_result c (run_fix B p t).
Proof.
  unfold run_fix. rewrite (fix_sc (b_uniqK B) (b_uniqR B) _ _ (b_key B p) _ p t HuK HuR (Hkey p)).
  destruct (fix_mesh _ _ _ p t true true) as [[[p' t'] j]|e]; reflexivity.
Qed.
Lemma bvert_sc dim t : get_boundary_vertices (b_uniqR B') dim t = get_boundary_vertices (b_uniqR B) dim t.
Proof.
  unfold get_boundary_vertices, get_boundary_edges, get_boundary_facets, rows_with_count. rewrite !HuR. reflexivity.
Qed.
Lemma run_delete_sc q p t : run_delete B' q (scp p) t = sc_result c (run_delete B q p t).
Proof.
  unfold run_delete, delete_boundary_entities, get_boundary_entities. rewrite bvert_sc, Hve.
  destruct (vtoe_result (b_ve B t)) as (vtoe, ptr).
  set (bele := unique_nat _).
  assert (kept_rows (entity_qual (scp p) t) q bele t = kept_rows (entity_qual p t) q bele t) as ->.
  { unfold kept_rows. f_equal. apply filter_ext. intros e. f_equal. f_equal. apply filter_ext. intros e'. rewrite entity_qual_sc. reflexivity. }
  rewrite (fix_sc (b_uniqK B) (b_uniqR B) _ _ (b_key B p) _ p _ HuK HuR (Hkey p)).
  destruct (fix_mesh _ _ _ p _ true true) as [[[p' t'] j]|e]; reflexivity.
Qed.
Lemma lint_sc p t l : lint_delete (scp p) t l = lint_delete p t l.
Proof. unfold lint_delete. f_equal. apply map_ext. intros e. rewrite !entity_qual_sc. reflexivity. Qed.
Lemma manifold_sc dim n t : is_manifold (b_uniqR B') dim n t = is_manifold (b_uniqR B) dim n t.
Proof. unfold is_manifold, get_boundary_edges, rows_with_count. rewrite HuR. reflexivity. Qed.
Lemma linter_sc dim q p t : linter B' dim q (scp p) t = sc_result c (linter B dim q p t).
Proof.
  unfold linter. rewrite overlap_sc, lint_sc, Hve, run_fix_sc.
  destruct (run_fix B p _) as [[p1 t1]|e]; [|reflexivity]. cbn [sc_result rbind fst snd]. destruct (dim =? 2)%nat.
  - rewrite run_delete_sc. destruct (run_delete B q p1 t1) as [[p2 t2]|e]; [|reflexivity]. cbn [sc_result rbind fst snd].
    rewrite manifold_sc. destruct (is_manifold _ 2 2 t2); [|reflexivity]. cbn [rbind snd]. destruct t2; reflexivity.
  - cbn [rbind snd]. destruct t1; reflexivity.
Qed.
Lemma termination_sc dim sm ck p t : termination B' dim sm ck (scp p) t = sc_result c (termination B dim sm ck p t).
Proof.
  unfold termination. destruct (dim =? 2)%nat.
  - rewrite run_fix_sc. destruct (run_fix B p t) as [[p1 t1]|e]; [|reflexivity]. cbn [sc_result rbind fst snd].
    rewrite run_delete_sc. destruct (run_delete B (15 / 100) p1 t1) as [[p2 t2]|e]; [|reflexivity]. cbn [sc_result rbind fst snd].
    rewrite Hsolve. destruct sm; cbn [rbind fst snd]; destruct ck; (apply linter_sc || apply run_fix_sc).
  - cbn [rbind fst snd]. destruct ck; [apply linter_sc|apply run_fix_sc].
Qed.
End Backend.

(** nearest vertex *)
Lemma argmin_from_scal k l : 0 < k -> forall i b v, argmin_from i b (k * v) (map (Rmult k) l) = argmin_from i b v l.
Proof. intros K. induction l as [|x l IH]; intros i b v; cbn; [reflexivity|]. rewrite Rltb_scal by exact K. destruct (Rltb x v); apply IH. Qed.
Lemma closest_sc q p : closest_node (sc q) (scp p) = closest_node q p.
Proof.
  unfold closest_node. replace (map (fun r => sq2 r (sc q)) (scp p)) with (map (Rmult (c * c)) (map (fun r => sq2 r q) p)).
  - destruct p as [|r p]; [reflexivity|]. cbn [map argmin]. apply argmin_from_scal, C2.
  - unfold Scale.scp. rewrite !map_map. apply map_ext. intros r. symmetry. apply sq2_sc.
Qed.

(** bar forces *)
Lemma bar_len_sc p e : sub_len (nth (fst e) p []) (nth (snd e) p []) <> 0 -> bar_len (scp p) e = c * bar_len p e.
Proof.
  intros N. unfold bar_len. rewrite !nth_scp, sub_len_sc. rewrite Reqb_scal0 by exact C.
  destruct (Reqb _ 0) eqn:E; [|reflexivity]. apply Reqb_true in E. contradiction.
Qed.
Lemma bar_vec_sc p e : bar_vec (scp p) e = sc (bar_vec p e).
Proof. unfold bar_vec. rewrite !nth_scp. apply minus_sc. Qed.
Lemma mid_sc p e : mid (scp p) e = sc (mid p e).
Proof. unfold mid. rewrite !nth_scp. unfold Scale.sc. apply map2_map. intros x y. field. Qed.
Lemma powsum_sc dim l : powsum dim (map (Rmult c) l) = c ^ dim * powsum dim l.
Proof.
  unfold powsum, rtotal. rewrite <- rtotal_scal, !map_map. f_equal. apply map_ext. intros x. apply Rpow_mult_distr.
Qed.
Lemma scale_sc dim f g p es : same_length c f g -> (forall e, In e es -> sub_len (nth (fst e) p []) (nth (snd e) p []) <> 0) ->
  scale dim g (scp p) es = scale dim f p es.
Proof.
  intros F N. unfold scale.
  assert (map (bar_len (scp p)) es = map (Rmult c) (map (bar_len p) es)) as ->.
  { rewrite map_map. apply map_ext_in. intros e I. apply bar_len_sc, N, I. }
  assert (map (fun e => g (mid (scp p) e)) es = map (Rmult c) (map (fun e => f (mid p e)) es)) as ->.
  { rewrite map_map. apply map_ext. intros e. rewrite mid_sc. apply F. }
  rewrite !powsum_sc. rewrite div_scal by (apply pow_lt, C). reflexivity.
Qed.
Lemma force_vec_sc dim f g m p es e j : same_length c f g -> (forall e, In e es -> sub_len (nth (fst e) p []) (nth (snd e) p []) <> 0) -> In e es ->
  force_vec dim g m (scp p) es e j = c * force_vec dim f m p es e j.
Proof.
  intros F N I. unfold force_vec, bar_force, desired. rewrite (scale_sc dim f g p es F N), (bar_len_sc p e (N e I)), bar_vec_sc, nth_sc, mid_sc, F.
  replace (c * f (mid p e) * m * scale dim f p es - c * bar_len p e) with (c * (f (mid p e) * m * scale dim f p es - bar_len p e)) by ring.
  rewrite Rltb_scal0 by exact C. destruct (Rltb _ 0).
  - unfold Rdiv. ring.
  - rewrite div_scal by exact C. ring.
Qed.
Lemma forces_sc dim f g m p t : same_length c f g -> no_zero_bars dim p t -> compute_forces dim g m (scp p) t = scp (compute_forces dim f m p t).
Proof.
  intros F N. unfold compute_forces. rewrite length_scp. rhs_scp. rewrite map_map. apply map_ext. intros v.
  rhs_sc. rewrite map_map. apply map_ext. intros j. unfold rtotal. rewrite <- rtotal_scal, map_map. f_equal. apply map_ext_in. intros e I.
  rewrite !(force_vec_sc dim f g m p (bars dim t) e j F N I). destruct (fst e =? v)%nat, (snd e =? v)%nat; ring.
Qed.
Lemma zero_rows_sc ix F : zero_rows ix (scp F) = scp (zero_rows ix F).
Proof.
  unfold zero_rows. rewrite length_scp. rhs_scp. rewrite map_map. apply map_ext. intros v. rewrite nth_scp.
  destruct (existsb _ ix); [|reflexivity]. unfold Scale.sc. rewrite !map_map. apply map_ext. intros; ring.
Qed.
Lemma move_points_sc dt p F : move_points dt (scp p) (scp F) = scp (move_points dt p F).
Proof. unfold move_points, Scale.scp. apply map2_map. intros x y. unfold Scale.sc. apply map2_map. intros; ring. Qed.
Lemma max_move_sc dt F : max_move dt (scp F) = c * max_move dt F.
Proof.
  unfold max_move. rewrite <- Rmult_assoc, (Rmult_comm c dt), Rmult_assoc. f_equal. rewrite <- (max_scal c) by exact C. f_equal.
  unfold Scale.scp. rewrite !map_map. apply map_ext. intros x. unfold rtotal. rewrite squares_sc, rtotal_scal. apply sqrt_sq. lra.
Qed.

(** Newton steps *)
Lemma deps_vec_sc dim deps i : deps_vec dim (c * deps) i = sc (deps_vec dim deps i).
Proof. unfold deps_vec, Scale.sc. rewrite map_map. apply map_ext. intros k. destruct (k =? i)%nat; ring. Qed.
Lemma dgrads_sc f g deps x : same_length c f g -> dgrads g (c * deps) (sc x) = dgrads f deps x.
Proof.
  intros F. unfold dgrads. rewrite length_sc. apply map_ext. intros i. rewrite deps_vec_sc.
  assert (map2 Rplus (sc x) (sc (deps_vec (length x) deps i)) = sc (map2 Rplus x (deps_vec (length x) deps i))) as ->.
  { unfold Scale.sc. apply map2_map. intros; ring. }
  rewrite !F, <- Rmult_minus_distr_l. apply div_scal, C.
Qed.
Lemma sum_sq_zero l : rtotal (map (fun v => v * v) l) = 0 -> forall x, In x l -> x = 0.
Proof.
  induction l as [|y l IH]; cbn; intros H x I; [contradiction|].
  assert (0 <= fold_right Rplus 0 (map (fun v => v * v) l)). { clear. induction l as [|z l IH]; cbn; [lra|]. pose proof (Rle_0_sqr z) as Z. unfold Rsqr in Z. lra. }
  pose proof (Rle_0_sqr y) as Y. unfold Rsqr in Y. destruct I as [<- |I]; [nra|]. apply IH; [unfold rtotal; nra|exact I].
Qed.
Lemma map2_mapl {A B D A' D'} (a : A -> A') (g : D -> D') (f : A -> B -> D) (f' : A' -> B -> D') l : forall m,
  (forall x y, In y m -> f' (a x) y = g (f x y)) -> map2 f' (map a l) m = map g (map2 f l m).
Proof.
  unfold map2. induction l as [|x l IH]; intros [|y m] H; cbn; try reflexivity. rewrite H by (left; reflexivity). f_equal. apply IH. intros; apply H; right; assumption.
Qed.
Lemma newton_sc f g deps al x : same_length c f g -> floor_free c f deps x -> newton g (c * deps) al (sc x) = sc (newton f deps al x).
Proof.
  intros F Z. unfold newton. rewrite (dgrads_sc f g deps x F), F. unfold Scale.sc. apply map2_mapl. intros y v I.
  transitivity (c * y - al * (c * (f x * v / dgrad2 deps (dgrads f deps x)))); [|ring]. f_equal. f_equal. unfold dgrad2. fold (slope2 f deps x).
  destruct Z as [Z|[Z|(Z1 & Z2)]].
  - rewrite Z. unfold Rdiv. ring.
  - rewrite (sum_sq_zero _ Z v I). unfold Rdiv. ring.
  - rewrite (proj2 (Rltb_false _ _) Z1), (proj2 (Rltb_false _ _) Z2). unfold Rdiv. ring.
Qed.
Lemma band_sc h idx d : outside_band (c * h) idx (c * d) = outside_band h idx d.
Proof.
  unfold outside_band. rewrite Rltb_scal0' by exact C. replace (c * h / (15 / 10)) with (c * (h / (15 / 10))) by (unfold Rdiv; ring).
  rewrite Rltb_scal by exact C. reflexivity.
Qed.
Lemma project_back_sc f g deps h idx p : same_length c f g -> project_calm c f deps h idx p ->
  project_back g (c * deps) (c * h) idx (scp p) = scp (project_back f deps h idx p).
Proof.
  intros F Q. unfold project_back, Scale.scp. rewrite !map_map. apply map_ext_in. intros x I. rewrite F, band_sc.
  destruct (outside_band h idx (f x)) eqn:E; [|reflexivity]. apply newton_sc; [exact F|]. exact (Q x I E).
Qed.
Lemma levels_sc deps h l m : Forall2 (same_length c) l m -> forall idx p, levels_calm c deps h idx l p ->
  project_levels (c * deps) (c * h) idx m (scp p) = scp (project_levels deps h idx l p).
Proof.
  induction 1 as [|f g l m F _ IH]; intros idx p Q; cbn [project_levels levels_calm] in *; [reflexivity|]. destruct Q as (Q1 & Q2).
  rewrite (project_back_sc f g) by assumption. apply IH, Q2.
Qed.
Lemma improve_loop_sc f g deps bid its : same_length c f g -> forall al p, improve_calm c f deps bid its al p ->
  improve_loop g (c * deps) bid its al (scp p) = scp (improve_loop f deps bid its al p).
Proof.
  intros F. induction its as [|it its IH]; intros al p Q; cbn [improve_loop improve_calm] in *; [reflexivity|]. destruct Q as (Q1 & Q2).
  rewrite <- IH by exact Q2. f_equal. rewrite length_scp. rhs_scp. rewrite map_map. apply map_ext_in. intros v I. apply in_seq in I.
  rewrite nth_scp. destruct (existsb _ bid) eqn:E; [|reflexivity]. apply newton_sc; [exact F|]. apply Q1; [lia|exact E].
Qed.

(** the loop *)
Definition levels_of (P : problem) : list (pt -> R) := g_fd P :: match g_subs P with Some l => l | None => [] end.
Definition same_problem (P P' : problem) : Prop :=
  g_dim P' = g_dim P /\ same_length c (g_fd P) (g_fd P') /\ same_length c (g_fh P) (g_fh P') /\ g_h0 P' = c * g_h0 P /\ g_deps P' = c * g_deps P /\
  g_geps P' = c * g_geps P /\ g_delta_t P' = g_delta_t P /\ g_pfix P' = scp (g_pfix P) /\ same_levels c (g_subs P) (g_subs P') /\
  g_max_iter P' = g_max_iter P /\ g_checks P' = g_checks P /\ g_improve P' = g_improve P.
Lemma ifix_sc P P' p : g_pfix P' = scp (g_pfix P) -> ifix_of P' (scp p) = ifix_of P p.
Proof. intros E. unfold ifix_of. rewrite E. change (map (fun f => closest_node f (scp p)) (map sc (g_pfix P)) = map (fun f => closest_node f p) (g_pfix P)). rewrite map_map. apply map_ext. intros f. apply closest_sc. Qed.
Lemma loop_sc B B' P P' : same_backend c B B' -> same_problem P P' -> forall fuel count p, calm c B P fuel count p ->
  mesh_loop B' P' fuel count (scp p) = sc_outcome c (mesh_loop B P fuel count p).
Proof.
  intros HB (Ed & F & H & Eh & Ee & Eg & Et & Ep & HS & Em & Ec & Ei). induction fuel as [|k IH]; intros count p Q; [reflexivity|].
  cbn [mesh_loop calm] in *. rewrite (proj1 HB). destruct (b_tri B count p) as (p1, t0). cbn [fst snd].
  destruct p1 as [|q p1]; [reflexivity|]. set (pp := q :: p1) in *. assert (PN : exists a b, scp pp = a :: b) by (eexists; eexists; reflexivity). clearbody pp.
  destruct PN as (a & b & PN). rewrite PN at 1. clear PN a b. rewrite Ed, Eg, Em. rewrite (remove_sc _ (g_fd P)) by exact F.
  set (t1 := remove_outside (g_dim P) (g_fd P) (g_geps P) pp t0) in *. destruct (Reqb (INR count) (g_max_iter P - 1)).
  - cbn [sc_outcome]. f_equal. f_equal. unfold finish, finish_calm in *. rewrite Ed, Ec, Ei.
    assert (match g_subs P' with None => g_improve P | Some _ => false end = match g_subs P with None => g_improve P | Some _ => false end) as ->.
    { unfold same_levels in HS. destruct (g_subs P), (g_subs P'); try contradiction; reflexivity. }
    rewrite (termination_sc B B' HB). destruct (termination B _ _ _ pp t1) as [[p2 t2]|e]; [|reflexivity]. cbn [sc_result rbind fst snd].
    unfold improve_level_set. rewrite (bvert_sc B B' HB). destruct (get_boundary_vertices (b_uniqR B) (g_dim P) t2) as [|v bid]; [reflexivity|].
    cbn [rbind]. rewrite Ee, (improve_loop_sc (g_fd P)) by assumption. rewrite Eh. cbn [sc_result]. f_equal. f_equal.
    replace (c * g_h0 P * (1 / 1000)) with (c * (g_h0 P * (1 / 1000))) by ring. apply remove_sc, F.
  - destruct Q as (N & Q). rewrite (ifix_sc P P' pp Ep), (forces_sc _ (g_fh P)), zero_rows_sc, Et, max_move_sc by assumption.
    replace (1000 * g_h0 P') with (c * (1000 * g_h0 P)) by (rewrite Eh; ring). rewrite Rltb_scal by exact C.
    destruct (Rltb _ (1000 * g_h0 P)); [|reflexivity]. destruct Q as (Q1 & Q2).
    rewrite <- IH by exact Q2. f_equal. unfold next_points. rewrite Ed, Ee, Eh, Et. rewrite (ifix_sc P P' pp Ep).
    unfold force_step at 1. rewrite (forces_sc _ (g_fh P)), zero_rows_sc, move_points_sc by assumption.
    apply levels_sc; [|exact Q1]. constructor; [exact F|]. unfold same_levels in HS. destruct (g_subs P), (g_subs P'); try contradiction; [exact HS|constructor].
Qed.

(** the preparation *)
Definition scpair (b : R * R) : R * R := (c * fst b, c * snd b).
Lemma pairs_sc : forall b, pairs_of (sc b) = map scpair (pairs_of b).
Proof. fix IH 1. intros [|x [|y b]]; try reflexivity. unfold Scale.sc. cbn [map pairs_of]. f_equal. apply IH. Qed.
Lemma n_nodes_sc a b h : n_nodes (c * a) (c * b) (c * h) = n_nodes a b h.
Proof. unfold n_nodes. rewrite <- Rmult_minus_distr_l, div_scal by exact C. reflexivity. Qed.
Lemma node_sc a h k : node (c * a) (c * h) k = c * node a h k.
Proof. unfold node. ring. Qed.
Lemma shift_sc h i : shift (c * h) i = c * shift h i.
Proof. unfold shift. destruct (Nat.odd i); [unfold Rdiv|]; ring. Qed.
Lemma map_flat_map {A B D} (g : B -> D) (f : A -> list B) l : map g (flat_map f l) = flat_map (fun x => map g (f x)) l.
Proof. induction l as [|x l IH]; cbn; [reflexivity|]. rewrite map_app, IH. reflexivity. Qed.
Lemma grid_sc h l : create_staggered_grid (c * h) (map scpair l) = scp (create_staggered_grid h l).
Proof.
  destruct l as [|b0 [|b1 [|b2 [|? ?]]]]; try reflexivity; cbn [map create_staggered_grid]; unfold staggered2, staggered3; cbn [scpair fst snd];
    rewrite <- !Rmult_plus_distr_l, !n_nodes_sc; unfold Scale.scp; rewrite map_flat_map; apply flat_map_ext; intros i.
  - rewrite map_map. apply map_ext. intros j. rewrite !node_sc, shift_sc, <- Rmult_plus_distr_l. reflexivity.
  - rewrite map_flat_map. apply flat_map_ext. intros j. rewrite map_map. apply map_ext. intros k. rewrite !node_sc, shift_sc, <- !Rmult_plus_distr_l. reflexivity.
Qed.
Lemma init_sc h l : make_init_points (map scpair l) 0 1 1 (c * h) = scp (make_init_points l 0 1 1 h).
Proof.
  unfold make_init_points. rewrite <- grid_sc. f_equal. rewrite map_length, map_map. apply map_ext. intros i.
  assert (nth i (map scpair l) (0, 0) = scpair (nth i l (0, 0))) as ->.
  { replace (0, 0) with (scpair (0, 0)) at 1 by (unfold scpair; cbn [fst snd]; f_equal; ring). apply map_nth. }
  destruct (i =? 1)%nat; [|reflexivity]. unfold local_span, limit, scpair. cbn [fst snd]. f_equal; unfold Rdiv; ring.
Qed.
Lemma minmax_sc : forall up a b, minmax_box up (sc a) (sc b) = sc (minmax_box up a b).
Proof.
  intros up a. revert up. induction a as [|x a IH]; intros up [|y b]; try reflexivity. unfold Scale.sc. cbn [map minmax_box]. f_equal; [|apply IH].
  destruct up; [apply RmaxRmult; lra|]. unfold Rmin. destruct (Rle_dec x y), (Rle_dec (c * x) (c * y)); try reflexivity; nra.
Qed.
Lemma box_eqb_sc a b : box_eqb (sc a) (sc b) = box_eqb a b.
Proof.
  unfold box_eqb. destruct (list_eq_dec Req_EM_T a b) as [Q|N], (list_eq_dec Req_EM_T (sc a) (sc b)) as [E|M]; try reflexivity; [exfalso; apply M; rewrite Q; reflexivity|].
  exfalso. apply N. clear N. revert b E. induction a as [|x a IH]; intros [|y b] E; try discriminate E; [reflexivity|].
  unfold Scale.sc in E. cbn [map] in E. injection E as E1 E2. f_equal; [nra|]. apply IH, E2.
Qed.
Lemma stdmin_sc x y : stdmin (c * x) (c * y) = c * stdmin x y.
Proof. unfold stdmin. rewrite Rltb_scal by exact C. destruct (Rltb y x); reflexivity. Qed.
Lemma rect_sc x1 x2 y1 y2 : same_length c (c_drectangle (fun t => t) x1 x2 y1 y2) (c_drectangle (fun t => t) (c * x1) (c * x2) (c * y1) (c * y2)).
Proof.
  intros q. destruct q as [|x [|y [|? ?]]]; try (cbn; ring). unfold Scale.sc. cbn [map c_drectangle].
  replace (- (c * y1) + c * y) with (c * (- y1 + y)) by ring. replace (- (c * x1) + c * x) with (c * (- x1 + x)) by ring.
  rewrite <- !Rmult_minus_distr_l, !stdmin_sc. ring.
Qed.
Lemma block_sc x1 x2 y1 y2 z1 z2 : same_length c (c_dblock (fun t => t) x1 x2 y1 y2 z1 z2) (c_dblock (fun t => t) (c * x1) (c * x2) (c * y1) (c * y2) (c * z1) (c * z2)).
Proof.
  intros q. destruct q as [|x [|y [|z [|? ?]]]]; try (cbn; ring). unfold Scale.sc. cbn [map c_dblock].
  replace (- (c * y1) + c * y) with (c * (- y1 + y)) by ring. replace (- (c * x1) + c * x) with (c * (- x1 + x)) by ring. replace (- (c * z1) + c * z) with (c * (- z1 + z)) by ring.
  rewrite <- !Rmult_minus_distr_l, !stdmin_sc. ring.
Qed.
Definition same_fd (a b : option (pt -> R)) : Prop := match a, b with Some f, Some g => same_length c f g | None, None => True | _, _ => False end.
Lemma prim_same dim b k f b' k' g keep : same_length c f g -> same_length c (d_eval (make_prim dim no_manip b k f keep)) (d_eval (make_prim dim no_manip b' k' g keep)).
Proof. intros F x. rewrite !no_manip_eval. apply F. Qed.
Lemma box_fd_sc b : same_fd (box_fd b) (box_fd (sc b)).
Proof.
  unfold Scale.sc. destruct b as [|a0 [|a1 [|a2 [|a3 [|a4 [|a5 [|? ?]]]]]]]; try exact Logic.I; cbn [map box_fd same_fd]; apply prim_same; [apply rect_sc|apply block_sc].
Qed.
Lemma cube_fd_sc b : same_fd (cube_fd b) (cube_fd (sc b)).
Proof.
  unfold Scale.sc. destruct b as [|a0 [|a1 [|a2 [|a3 [|a4 [|a5 [|? ?]]]]]]]; try exact Logic.I. cbn [map cube_fd same_fd]. apply prim_same, block_sc.
Qed.
Lemma dom_sc d d' : same_domain c d d' -> dom_bbox d' = sc (dom_bbox d) /\ dom_corners d' = option_map scp (dom_corners d) /\ same_length c (dom_fd d) (dom_fd d').
Proof. intros [o o' E1 E2 F|f f' b F]; cbn; auto. Qed.
Lemma size_sc s s' : same_size c s s' -> size_bbox s' = option_map sc (size_bbox s) /\ size_hmin s' = option_map (Rmult c) (size_hmin s) /\ same_length c (size_fh s) (size_fh s').
Proof. intros [b h f f' F|f f' F|h]; cbn; repeat split; try assumption; intros x; reflexivity. Qed.
Lemma full_sc d d' s s' : same_domain c d d' -> same_size c s s' -> full_bbox d' s' = sc (full_bbox d s).
Proof.
  intros D S. destruct (dom_sc d d' D) as (E & _ & _). destruct (size_sc s s' S) as (Eb & _). unfold full_bbox. rewrite Eb, E.
  destruct (size_bbox s); cbn [option_map]; [apply minmax_sc|reflexivity].
Qed.
Lemma meshed_sc d d' s s' : same_domain c d d' -> same_size c s s' -> same_fd (meshed_fd d s) (meshed_fd d' s').
Proof.
  intros D S. unfold meshed_fd. rewrite (full_sc d d' s s' D S). destruct (dom_sc d d' D) as (E & _ & F). destruct (size_sc s s' S) as (Eb & _). rewrite Eb, E.
  destruct (size_bbox s) as [b1|]; cbn [option_map]; [|exact F]. rewrite box_eqb_sc. destruct (box_eqb _ b1); [exact F|apply box_fd_sc].
Qed.
Lemma kept_sc f g deps l : same_length c f g -> kept_corners g (c * deps) (scp l) = scp (kept_corners f deps l).
Proof.
  intros F. unfold kept_corners, Scale.scp. apply filter_map'. intros x. rewrite F. replace (-1000 * (c * deps)) with (c * (-1000 * deps)) by ring. apply Rgtb_scal, C.
Qed.
Lemma fixed_sc d d' s s' dim f g deps o o' : same_domain c d d' -> same_size c s s' -> same_length c f g -> o_pfix o' = scp (o_pfix o) ->
  fixed_points d' s' dim g (c * deps) o' = scp (fixed_points d s dim f deps o).
Proof.
  intros D S F E. unfold fixed_points. rewrite E. rhs_scp. rewrite map_app. f_equal.
  change (map sc (kept_corners f deps (used_corners d s dim))) with (scp (kept_corners f deps (used_corners d s dim))). rewrite <- (kept_sc f g) by exact F. f_equal.
  unfold used_corners. destruct (dom_sc d d' D) as (_ & -> & _). destruct S; destruct (dom_corners d); try reflexivity; cbn [option_map]; destruct (dim =? 3)%nat; reflexivity.
Qed.
Lemma start_sc B B' s s' dim bbox f g h0 geps pfix o o' : same_backend c B B' -> same_size c s s' -> same_length c f g -> same_options c o o' ->
  start_points B' s' dim (sc bbox) g (c * h0) (c * geps) (scp pfix) o' =
  match start_points B s dim bbox f h0 geps pfix o with Ok p => Ok (scp p) | Err e => Err e end.
Proof.
  intros HB S F (Ep & Eo & _ & _ & _ & _ & _ & _ & _ & Er). unfold start_points. rewrite Eo. destruct (o_points o) as [p|]; [reflexivity|]. cbn [option_map].
  unfold initial_points.
  assert (grid_points s' (sc bbox) (c * h0) = scp (grid_points s bbox h0)) as ->.
  { destruct S; cbn [grid_points]; rewrite pairs_sc; [apply grid_sc|apply init_sc|apply grid_sc]. }
  assert (filter (fun x => Rltb (g x) (c * geps)) (scp (grid_points s bbox h0)) = scp (filter (fun x => Rltb (f x) geps) (grid_points s bbox h0))) as ->.
  { unfold Scale.scp. apply filter_map'. intros x. rewrite F. apply Rltb_scal, C. }
  set (q := filter (fun x => Rltb (f x) geps) (grid_points s bbox h0)). clearbody q.
  assert (map (size_fh s') (scp q) = map (Rmult c) (map (size_fh s) q)) as ->.
  { unfold Scale.scp. rewrite !map_map. apply map_ext. apply size_sc, S. }
  set (r0 := map (size_fh s) q). rewrite length_scp, (proj2 (proj2 (proj2 (proj2 (proj2 (proj2 HB)))))).
  assert (r0m_of o' (c * h0) (map (Rmult c) r0) = c * r0m_of o h0 r0) as ->.
  { unfold r0m_of. rewrite Er, min_scal by exact C. replace (11 / 10 * (c * h0)) with (c * (11 / 10 * h0)) by ring. rewrite Rltb_scal by exact C.
    destruct (o_r0m_is_h0 o); [|reflexivity]. destruct (Rltb (11 / 10 * h0) (min_list r0)); reflexivity. }
  destruct q as [|x q]; [reflexivity|]. set (qq := x :: q) in *. change (match scp qq with [] => Err ValueError | _ :: _ => Ok (scp pfix ++ map (fun i => nth i (scp qq) [])
    (filter (fun i => Rltb (nth i (b_rand B (length qq)) 0) ((c * r0m_of o h0 r0) ^ dim / nth i (map (Rmult c) r0) 0 ^ dim)) (seq 0 (length qq)))) end =
    Ok (scp (pfix ++ map (fun i => nth i qq []) (filter (fun i => Rltb (nth i (b_rand B (length qq)) 0) (r0m_of o h0 r0 ^ dim / nth i r0 0 ^ dim)) (seq 0 (length qq)))))).
  change (scp qq) with (sc x :: scp q) at 1. cbv iota. f_equal. rhs_scp. rewrite map_app. f_equal. rewrite select_sc. unfold Scale.scp at 1. f_equal. f_equal.
  apply filter_ext. intros i. change (map (Rmult c) r0) with (sc r0). rewrite nth_sc, !Rpow_mult_distr, div_scal by (apply pow_lt, C). reflexivity.
Qed.
Lemma prepare_sc B B' d d' s s' o o' : same_backend c B B' -> same_domain c d d' -> same_size c s s' -> same_options c o o' ->
  match prepare B d s o with
  | Ok (P, p) => exists P', prepare B' d' s' o' = Ok (P', scp p) /\ same_problem P P'
  | Err e => prepare B' d' s' o' = Err e
  end.
Proof.
  intros HB D S OO. pose proof OO as (Ep & Eo & Es & Eh & Em & Ec & Et & Eg & Ei & Er). unfold prepare. rewrite (full_sc d d' s s' D S), length_sc.
  pose proof (meshed_sc d d' s s' D S) as M. unfold same_fd in M. destruct (meshed_fd d s) as [f|], (meshed_fd d' s') as [g|]; try contradiction; [|reflexivity].
  assert (the_h0 s' o' = option_map (Rmult c) (the_h0 s o)) as ->.
  { unfold the_h0. destruct (size_sc s s' S) as (_ & -> & _). destruct (size_hmin s); [reflexivity|exact Eh]. }
  destruct (the_h0 s o) as [h0|]; [|reflexivity]. cbn [option_map]. rewrite Rltb_scal0 by exact C. destruct (Rltb h0 0); [reflexivity|].
  set (dim := Nat.div2 (length (full_bbox d s))). destruct (negb _); [reflexivity|].
  replace (deps_of (c * h0)) with (c * deps_of h0) by (unfold deps_of; ring). rewrite (fixed_sc d d' s s' dim f g _ o o' D S M Ep), Eg.
  replace (o_geps_mult o * (c * h0)) with (c * (o_geps_mult o * h0)) by ring. rewrite (start_sc B B' s s' dim _ f g h0 _ _ o o' HB S M OO), Em.
  destruct (start_points B s dim _ f h0 _ _ o) as [p|e]; [|reflexivity]. cbn [rbind]. destruct (Rltb (o_max_iter o) 0); [reflexivity|].
  destruct p as [|x p]; [reflexivity|]. eexists. split; [reflexivity|]. unfold same_problem. cbn. rewrite Et, Ec, Ei.
  repeat split; try reflexivity; try assumption. apply size_sc, S.
Qed.

(** sliver_removal *)
Lemma l2_sc u : l2_norm (sc u) = c * l2_norm u.
Proof. unfold l2_norm. rewrite squares_sc, rtotal_scal. apply sqrt_sq. lra. Qed.
Lemma unit_sc u n : map (fun x => x / (c * n)) (sc u) = map (fun x => x / n) u.
Proof. unfold Scale.sc. rewrite map_map. apply map_ext. intros x. apply div_scal, C. Qed.
Lemma dihedral_sc a b d e : dihedral_angle (sc a) (sc b) (sc d) (sc e) = dihedral_angle a b d e.
Proof. unfold dihedral_angle. rewrite !minus_sc, !l2_sc, !unit_sc, !Reqb_scal0 by exact C. reflexivity. Qed.
Lemma cell_angles_sc s : cell_angles (scp s) = cell_angles s.
Proof. unfold cell_angles. apply map_ext. intros i. rewrite !nth_scp. apply dihedral_sc. Qed.
Lemma slivers_sc p t lo hi : slivers (scp p) t lo hi = slivers p t lo hi.
Proof.
  unfold slivers. replace (calc_dihedral_angles (scp p) t) with (calc_dihedral_angles p t); [reflexivity|].
  unfold calc_dihedral_angles. apply flat_map_ext. intros r. rewrite pts_sc. symmetry. apply cell_angles_sc.
Qed.
Lemma sphere_grad_sc a b d e : circumsphere_grad (sc a) (sc b) (sc d) (sc e) = sc (circumsphere_grad a b d e).
Proof.
  unfold Scale.sc. destruct a as [|a0 [|a1 [|a2 [|? ?]]]]; try reflexivity. destruct b as [|b0 [|b1 [|b2 [|? ?]]]]; try reflexivity.
  destruct d as [|d0 [|d1 [|d2 [|? ?]]]]; try reflexivity. destruct e as [|e0 [|e1 [|e2 [|? ?]]]]; try reflexivity.
  assert (K6 : 0 < c * c * c * (c * c * c)) by (pose proof C3; nra). assert (K9 : 0 < c * c * c * (c * c * c) * (c * c * c)) by (pose proof C3; nra).
  assert (G : forall N D M E N' D' M' E', N' = c * c * c * (c * c * c) * (c * N) -> D' = c * c * c * (c * c * c) * D ->
    M' = c * c * c * (c * c * c) * (c * c * c) * (c * M) -> E' = c * c * c * (c * c * c) * (c * c * c) * E -> N' / D' - M' / E' = c * (N / D - M / E)).
  { intros N D M E N' D' M' E' -> -> -> ->. rewrite (div_scal _ (c * N) D K6), (div_scal _ (c * M) E K9). unfold Rdiv. ring. }
  unfold circumsphere_grad. cbn [map]. cbv zeta. f_equal; [|f_equal; [|f_equal]]; apply G; ring.
Qed.
Lemma perturb_sc p r : perturb_of (scp p) r = perturb_of p r.
Proof.
  unfold perturb_of. rewrite !nth_scp, sphere_grad_sc. set (g := circumsphere_grad _ _ _ _).
  assert (sqrt (rtotal (map (fun x => Rabs x ^ 2) (sc g))) = c * sqrt (rtotal (map (fun x => Rabs x ^ 2) g))) as ->.
  { unfold rtotal. rewrite <- (sqrt_sq c) by lra. rewrite <- rtotal_scal. f_equal. f_equal. unfold Scale.sc. rewrite !map_map. apply map_ext. intros x.
    rewrite Rabs_mult, (Rabs_right c) by lra. ring. }
  apply unit_sc.
Qed.
Lemma perturb_points_sc step h p t sl : perturb_points step (c * h) (scp p) t sl = scp (perturb_points step h p t sl).
Proof.
  unfold perturb_points. rewrite length_scp. rhs_scp. rewrite map_map. apply map_ext. intros v. rewrite nth_scp.
  destruct (filter _ (rev sl)) as [|e l]; [reflexivity|]. rewrite perturb_sc. unfold Scale.sc. apply map2_mapl. intros; ring.
Qed.
Definition same_sliver (S S' : sliver_problem) : Prop :=
  same_length c (s_fd S) (s_fd S') /\ s_h0 S' = c * s_h0 S /\ s_deps S' = c * s_deps S /\ s_geps S' = c * s_geps S /\ s_lo S' = s_lo S /\ s_hi S' = s_hi S /\
  s_gamma S' = s_gamma S /\ s_preserve S' = s_preserve S /\ s_max_iter S' = s_max_iter S /\ s_checks S' = s_checks S.
Lemma improve_all f deps bid its : (forall x, floor_free c f deps x) -> forall al p, improve_calm c f deps bid its al p.
Proof. intros A. induction its as [|it its IH]; intros al p; cbn; [exact Logic.I|]. split; [intros; apply A|apply IH]. Qed.
Lemma sliver_loop_sc B B' S S' : same_backend c B B' -> same_sliver S S' -> (s_preserve S = false \/ forall x, floor_free c (s_fd S) (s_deps S) x) ->
  forall fuel count step old p, sliver_loop B' S' fuel count step old (scp p) = sc_outcome c (sliver_loop B S fuel count step old p).
Proof.
  intros HB (F & Eh & Ed & Eg & El & Ehi & Ega & Epr & Em & Ec) Q. induction fuel as [|k IH]; intros count step old p; [reflexivity|].
  cbn [sliver_loop]. rewrite (proj1 HB). destruct (b_tri B count p) as (p1, t0). cbn [fst snd]. rewrite Eg, (remove_sc 3 (s_fd S)) by exact F.
  set (t1 := remove_outside 3 (s_fd S) (s_geps S) p1 t0). rewrite slivers_sc, El, Ehi, Em, Ec, Ega, Epr, Eh, Ed.
  destruct (Reqb (INR count) (s_max_iter S - 1)); [cbn [sc_outcome]; rewrite (termination_sc B B' HB); reflexivity|].
  destruct (slivers p1 t1 (s_lo S) (s_hi S)) as [|e sl]; [cbn [sc_outcome]; rewrite (run_fix_sc B B' HB); reflexivity|].
  rewrite perturb_points_sc. set (p2 := perturb_points _ _ _ _ _). destruct Q as [Q|Q].
  - rewrite Q. apply IH.
  - destruct (s_preserve S); [|apply IH]. unfold improve_level_set. rewrite (bvert_sc B B' HB).
    destruct (get_boundary_vertices (b_uniqR B) 3 t1) as [|v bid]; [reflexivity|]. rewrite (improve_loop_sc (s_fd S)); [apply IH|exact F|].
    apply improve_all, Q.
Qed.
End Scale.
