(** Every step of the generator with everything moved by a vector. *)
From Coq Require Import Reals List Arith Bool ZArith Lia Lra Permutation.
From Verif Require Import Model.Base Model.SDF Model.Simplex Model.Mesh Model.Formulas Model.Laplace Model.Forces Model.Newton Model.InitGrid
  Model.Dihedral Model.Generator Spec.Translate Proofs.ListAux Proofs.EdgeProofs Proofs.SDFBox Proofs.MeshAux Proofs.ScaleProofs Props.P06_mesh.
Import ListNotations.
Local Open Scope R_scope.

Lemma map2_cons {A B D} (f : A -> B -> D) x y l m : map2 f (x :: l) (y :: m) = f x y :: map2 f l m.
Proof. reflexivity. Qed.
Lemma length_tr v x : length (tr v x) = length x.
Proof. revert x. induction v as [|d v IH]; intros [|a x]; cbn; try reflexivity. rewrite IH. reflexivity. Qed.
Lemma tr_nil v : tr v [] = []. Proof. destruct v; reflexivity. Qed.
Lemma nth_tr v : forall x i, (i < length x)%nat -> nth i (tr v x) 0 = nth i x 0 + nth i v 0.
Proof.
  induction v as [|d v IH]; intros [|a x] i L; cbn [tr length] in *; try lia.
  - destruct i; cbn; ring.
  - destruct i as [|i]; cbn [nth]; [reflexivity|]. apply IH. lia.
Qed.
Lemma minus_tr v : forall x y, map2 Rminus (tr v x) (tr v y) = map2 Rminus x y.
Proof.
  induction v as [|d v IH]; intros [|a x] [|b y]; try reflexivity. cbn [tr]. rewrite !map2_cons, IH. f_equal. ring.
Qed.
(** combining a moved point with something that does not move *)
Lemma map2_tr {B} (f : R -> B -> R) : (forall a d b, f (a + d) b = f a b + d) -> forall v x y, map2 f (tr v x) y = tr v (map2 f x y).
Proof.
  intros H. induction v as [|d v IH]; intros [|a x] [|b y]; try reflexivity. cbn [tr]. rewrite !map2_cons, H, IH. reflexivity.
Qed.
Lemma map2_tr2 (f : R -> R -> R) : (forall a b d, f (a + d) (b + d) = f a b + d) -> forall v x y, map2 f (tr v x) (tr v y) = tr v (map2 f x y).
Proof.
  intros H. induction v as [|d v IH]; intros [|a x] [|b y]; try reflexivity. cbn [tr]. rewrite !map2_cons, H, IH. reflexivity.
Qed.
Lemma flat_map_ext_in {A B} (f g : A -> list B) l : (forall x, In x l -> f x = g x) -> flat_map f l = flat_map g l.
Proof. induction l as [|x l IH]; intros H; [reflexivity|]. cbn [flat_map]. rewrite H, IH; [reflexivity|intros; apply H; right; assumption|left; reflexivity]. Qed.

(** the lists simp_vol understands *)
Definition shape (m k : nat) (s : list (list R)) : bool := ((length s =? m)%nat && forallb (fun x => (length x =? k)%nat) s)%bool.
Lemma shape_all m k s : shape m k s = true -> length s = m /\ forall x, In x s -> length x = k.
Proof.
  unfold shape. intros H. apply andb_true_iff in H. destruct H as (A & B). apply Nat.eqb_eq in A. split; [exact A|]. intros x I. rewrite forallb_forall in B. apply Nat.eqb_eq, B, I.
Qed.
Lemma vol_shapeless s : shape 3 2 s = false -> shape 4 3 s = false -> simp_vol s = 0.
Proof.
  intros H2 H3. destruct s as [|p0 s]; [reflexivity|]. destruct p0 as [|x0 [|y0 [|z0 [|w0 p0]]]]; try reflexivity.
  - destruct s as [|p1 s]; [reflexivity|]. destruct p1 as [|x1 [|y1 [|z1 p1]]]; try reflexivity.
    destruct s as [|p2 s]; [reflexivity|]. destruct p2 as [|x2 [|y2 [|z2 p2]]]; try reflexivity. destruct s as [|p3 s]; [discriminate H2|reflexivity].
  - destruct s as [|p1 s]; [reflexivity|]. destruct p1 as [|x1 [|y1 [|z1 [|? ?]]]]; try reflexivity.
    destruct s as [|p2 s]; [reflexivity|]. destruct p2 as [|x2 [|y2 [|z2 [|? ?]]]]; try reflexivity.
    destruct s as [|p3 s]; [reflexivity|]. destruct p3 as [|x3 [|y3 [|z3 [|? ?]]]]; try reflexivity. destruct s as [|p4 s]; [discriminate H3|reflexivity].
Qed.

Section Move.
Variable v : list R.
Notation n := (length v).
Notation tr := (tr v). Notation trp := (trp v).
Lemma nth_trp i p : nth i (trp p) [] = tr (nth i p []).
Proof. unfold Translate.trp. rewrite <- (tr_nil v) at 1. apply map_nth. Qed.
Lemma length_trp p : length (trp p) = length p. Proof. apply map_length. Qed.
Lemma pts_tr p r : pts_of (trp p) r = trp (pts_of p r).
Proof. unfold pts_of, Translate.trp at 2. rewrite map_map. apply map_ext. intros a. apply nth_trp. Qed.
Lemma sub_len_tr p q : sub_len (tr p) (tr q) = sub_len p q.
Proof. unfold sub_len. rewrite minus_tr. reflexivity. Qed.
Lemma sq2_tr p q : sq2 (tr p) (tr q) = sq2 p q.
Proof. unfold sq2. rewrite minus_tr. reflexivity. Qed.
Lemma shape_tr m k s : shape m k (trp s) = shape m k s.
Proof.
  unfold shape. rewrite length_trp. f_equal. unfold Translate.trp. induction s as [|x s IH]; [reflexivity|]. cbn [map forallb]. rewrite length_tr, IH. reflexivity.
Qed.
Lemma vol_tr s : simp_vol (trp s) = simp_vol s.
Proof.
  destruct (shape 3 2 s) eqn:E2; [|destruct (shape 4 3 s) eqn:E3].
  - destruct (shape_all _ _ _ E2) as (L & A). destruct s as [|p0 [|p1 [|p2 [|? ?]]]]; try discriminate L.
    pose proof (A p0 ltac:(cbn; tauto)) as L0. pose proof (A p1 ltac:(cbn; tauto)) as L1. pose proof (A p2 ltac:(cbn; tauto)) as L2.
    destruct p0 as [|? [|? [|? ?]]]; try discriminate L0. destruct p1 as [|? [|? [|? ?]]]; try discriminate L1. destruct p2 as [|? [|? [|? ?]]]; try discriminate L2.
    destruct v as [|d0 [|d1 [|d2 v0]]]; cbn; field.
  - destruct (shape_all _ _ _ E3) as (L & A). destruct s as [|p0 [|p1 [|p2 [|p3 [|? ?]]]]]; try discriminate L.
    pose proof (A p0 ltac:(cbn; tauto)) as L0. pose proof (A p1 ltac:(cbn; tauto)) as L1. pose proof (A p2 ltac:(cbn; tauto)) as L2. pose proof (A p3 ltac:(cbn; tauto)) as L3.
    destruct p0 as [|? [|? [|? [|? ?]]]]; try discriminate L0. destruct p1 as [|? [|? [|? [|? ?]]]]; try discriminate L1. destruct p2 as [|? [|? [|? [|? ?]]]]; try discriminate L2.
    destruct p3 as [|? [|? [|? [|? ?]]]]; try discriminate L3. destruct v as [|d0 [|d1 [|d2 [|d3 v0]]]]; cbn; field.
  - rewrite !vol_shapeless by (rewrite ?shape_tr; assumption). reflexivity.
Qed.
Lemma orient_tr p r : orient (trp p) r = orient p r.
Proof. unfold orient. fold (pts_of (trp p) r). fold (pts_of p r). rewrite pts_tr, vol_tr. reflexivity. Qed.
Lemma entity_qual_tr p t e : entity_qual (trp p) t e = entity_qual p t e.
Proof.
  unfold entity_qual. fold (pts_of (trp p) (nth e t [])). rewrite pts_tr. fold (pts_of p (nth e t [])). unfold simp_qual. rewrite !nth_trp, !sub_len_tr. reflexivity.
Qed.
(** centroids of simplices of the space *)
Lemma sum_shift (l : list (list R)) j : (forall x, In x l -> (j < length x)%nat) ->
  fold_right Rplus 0 (map (fun q => nth j q 0) (trp l)) = fold_right Rplus 0 (map (fun q => nth j q 0) l) + INR (length l) * nth j v 0.
Proof.
  induction l as [|x l IH]; intros H; [cbn; ring|]. cbn [Translate.trp map fold_right]. change (map tr l) with (trp l). rewrite IH by (intros; apply H; right; assumption).
  rewrite nth_tr by (apply H; left; reflexivity). cbn [length]. rewrite S_INR. ring.
Qed.
Lemma tr_seq (g : nat -> R) : tr (map g (seq 0 n)) = map (fun j => g j + nth j v 0) (seq 0 n).
Proof.
  apply (nth_ext _ _ 0 0); [rewrite length_tr, !map_length; reflexivity|]. intros j L. rewrite length_tr, map_length, seq_length in L.
  rewrite nth_tr by (rewrite map_length, seq_length; exact L). rewrite !(nth_map' _ _ _ 0 0%nat) by (rewrite seq_length; exact L). rewrite seq_nth by exact L. reflexivity.
Qed.
Lemma centroid_tr l : length l = S n -> in_space n l -> centroid n (trp l) = tr (centroid n l).
Proof.
  intros L D. unfold centroid. rewrite tr_seq. apply map_ext_in. intros j I. apply in_seq in I. rewrite sum_shift by (intros x X; rewrite (D x X); lia).
  rewrite L. field. apply not_0_INR. lia.
Qed.
Lemma pts_space p r : in_space n p -> (forall a, In a r -> (a < length p)%nat) -> in_space n (pts_of p r).
Proof. intros D V x I. unfold pts_of in I. apply in_map_iff in I. destruct I as (a & <- & Ia). apply D, nth_In, V, Ia. Qed.
Lemma remove_tr f g geps p t : moved v f g -> sound n p t -> remove_outside n g geps (trp p) t = remove_outside n f geps p t.
Proof.
  intros S (D & V). unfold remove_outside. apply filter_ext_in. intros r I. destruct (V r I) as (L & A).
  rewrite pts_tr, centroid_tr, S; [reflexivity|unfold centroid; rewrite map_length, seq_length; reflexivity|unfold pts_of; rewrite map_length; exact L|apply pts_space; assumption].
Qed.
Lemma remove_sound m f geps p t : sound m p t -> sound m p (remove_outside m f geps p t).
Proof. intros (D & V). split; [exact D|]. intros r I. apply filter_In in I. apply V, I. Qed.
(** overlaps *)
Lemma in_entity_tr c p r : length c = n -> in_space n p -> (r = [] \/ length r = S n /\ forall a, In a r -> (a < length p)%nat) ->
  in_entity n (tr c) (trp p) r = in_entity n c p r.
Proof.
  intros LC D HR. unfold in_entity. rewrite pts_tr. destruct HR as [->|(L & V)].
  { cbn [pts_of map Translate.trp concat]. unfold vertex_in_entity2, vertex_in_entity3. destruct (n =? 2)%nat; [destruct (tr c) as [|? [|? [|? ?]]], c as [|? [|? [|? ?]]]; reflexivity|].
    destruct (n =? 3)%nat; reflexivity. }
  pose proof (pts_space p r D V) as DP. assert (LP : length (pts_of p r) = S n) by (unfold pts_of; rewrite map_length; exact L).
  set (s := pts_of p r) in *. clearbody s. clear D V L r p.
  destruct (Nat.eqb_spec n 2) as [E2|N2]; [|destruct (Nat.eqb_spec n 3) as [E3|N3]; [|reflexivity]].
  - destruct v as [|d0 [|d1 [|? ?]]]; try discriminate E2. cbn [length] in *.
    destruct s as [|s0 [|s1 [|s2 [|? ?]]]]; try discriminate LP.
    pose proof (DP s0 ltac:(cbn; tauto)) as L0. pose proof (DP s1 ltac:(cbn; tauto)) as L1. pose proof (DP s2 ltac:(cbn; tauto)) as L2.
    destruct s0 as [|? [|? [|? ?]]]; try discriminate L0. destruct s1 as [|? [|? [|? ?]]]; try discriminate L1. destruct s2 as [|? [|? [|? ?]]]; try discriminate L2.
    destruct c as [|? [|? [|? ?]]]; try discriminate LC. cbn [Translate.trp map Translate.tr concat app vertex_in_entity2].
    repeat match goal with |- context [?a + ?d - (?b + ?d)] => replace (a + d - (b + d)) with (a - b) by ring end. reflexivity.
  - destruct v as [|d0 [|d1 [|d2 [|? ?]]]]; try discriminate E3. cbn [length] in *.
    destruct s as [|s0 [|s1 [|s2 [|s3 [|? ?]]]]]; try discriminate LP.
    pose proof (DP s0 ltac:(cbn; tauto)) as L0. pose proof (DP s1 ltac:(cbn; tauto)) as L1. pose proof (DP s2 ltac:(cbn; tauto)) as L2. pose proof (DP s3 ltac:(cbn; tauto)) as L3.
    assert (G : forall a b d f, length a = 3%nat -> length b = 3%nat -> length d = 3%nat -> length f = 3%nat ->
      det4 (hom (Translate.tr [d0; d1; d2] a) ++ hom (Translate.tr [d0; d1; d2] b) ++ hom (Translate.tr [d0; d1; d2] d) ++ hom (Translate.tr [d0; d1; d2] f)) = det4 (hom a ++ hom b ++ hom d ++ hom f)).
    { intros a b d f A B D F. destruct a as [|? [|? [|? [|? ?]]]]; try discriminate A. destruct b as [|? [|? [|? [|? ?]]]]; try discriminate B.
      destruct d as [|? [|? [|? [|? ?]]]]; try discriminate D. destruct f as [|? [|? [|? [|? ?]]]]; try discriminate F. cbn [Translate.tr hom app det4]. ring. }
    destruct s0 as [|a0 [|b0 [|c0 [|? ?]]]]; try discriminate L0. destruct s1 as [|a1 [|b1 [|c1 [|? ?]]]]; try discriminate L1.
    destruct s2 as [|a2 [|b2 [|c2 [|? ?]]]]; try discriminate L2. destruct s3 as [|a3 [|b3 [|c3 [|? ?]]]]; try discriminate L3.
    pose proof (G [a0; b0; c0] [a1; b1; c1] [a2; b2; c2] [a3; b3; c3] eq_refl eq_refl eq_refl eq_refl) as G0.
    pose proof (G c [a1; b1; c1] [a2; b2; c2] [a3; b3; c3] LC eq_refl eq_refl eq_refl) as G1.
    pose proof (G [a0; b0; c0] c [a2; b2; c2] [a3; b3; c3] eq_refl LC eq_refl eq_refl) as G2.
    pose proof (G [a0; b0; c0] [a1; b1; c1] c [a3; b3; c3] eq_refl eq_refl LC eq_refl) as G3.
    pose proof (G [a0; b0; c0] [a1; b1; c1] [a2; b2; c2] c eq_refl eq_refl eq_refl LC) as G4. clear G DP.
    destruct c as [|e0 [|e1 [|e2 [|? ?]]]]; try discriminate LC.
    cbn [Translate.trp Translate.tr map concat app hom] in G0, G1, G2, G3, G4 |- *. unfold vertex_in_entity3. cbn [hom app] in *. rewrite G0, G1, G2, G3, G4. reflexivity.
Qed.
Lemma nth_row (p : list (list R)) t e : sound n p t -> nth e t [] = [] \/ length (nth e t []) = S n /\ forall a, In a (nth e t []) -> (a < length p)%nat.
Proof. intros (_ & V). destruct (lt_dec e (length t)) as [L|L]; [right; apply V, nth_In, L|left; apply nth_overflow; lia]. Qed.
Lemma overlap_tr p t ve : sound n p t -> do_any_overlap n (trp p) t ve = do_any_overlap n p t ve.
Proof.
  intros SD. unfold do_any_overlap. destruct (vtoe_result ve) as (vtoe, ptr). apply flat_map_ext_in. intros ie I. apply in_seq in I. apply flat_map_ext. intros el.
  destruct (ie =? el)%nat; [reflexivity|]. destruct (proj2 SD (nth ie t [])) as (L & V); [apply nth_In; lia|].
  rewrite pts_tr, centroid_tr; [|unfold pts_of; rewrite map_length; exact L|apply pts_space; [apply SD|exact V]].
  rewrite in_entity_tr; [reflexivity|unfold centroid; rewrite map_length, seq_length; reflexivity|apply SD|apply nth_row, SD].
Qed.
Lemma select_tr ix p : map (fun i => nth i (trp p) []) ix = trp (map (fun i => nth i p []) ix).
Proof. exact (pts_tr p ix). Qed.

(** fix_mesh *)
Lemma fix_tr uK uR uK' uR' k k' p t : (forall l, uK' l = uK l) -> (forall l, uR' l = uR l) -> (forall x, k' (tr x) = k x) ->
  fix_mesh uK' uR' k' (trp p) t true true =
  match fix_mesh uK uR k p t true true with Ok (p', t', j) => Ok (trp p', t', j) | Err e => Err e end.
Proof.
  intros UK UR K. unfold fix_mesh. rewrite length_trp.
  assert (map k' (trp p) = map k p) as -> by (unfold Translate.trp; rewrite map_map; apply map_ext; exact K). rewrite UK.
  set (u := uK (map k p)).
  assert (map (fun q => find_pos (key_eqb (k' q)) u) (trp p) = map (fun q => find_pos (key_eqb (k q)) u) p) as ->.
  { unfold Translate.trp. rewrite map_map. apply map_ext. intros q. rewrite K. reflexivity. }
  assert (map (fun x => find_pos (fun q => key_eqb (k' q) x) (trp p)) u = map (fun x => find_pos (fun q => key_eqb (k q) x) p) u) as ->.
  { apply map_ext. intros x. apply find_pos_map. intros q. rewrite K. reflexivity. }
  destruct (length p =? 0)%nat; [reflexivity|]. destruct (valid_rows (length p) t); [|reflexivity]. rewrite UR.
  rewrite !select_tr. f_equal. f_equal. f_equal. apply map_ext. intros r. apply orient_tr.
Qed.
Lemma fix_sound m uK uR k p t p' t' j : uniq_ok uK -> uniq_ok uR -> sound m p t -> fix_mesh uK uR k p t true true = Ok (p', t', j) -> sound m p' t'.
Proof.
  intros HK HR (D & V) H. destruct (C33_fix_mesh_clean _ _ _ _ _ _ _ _ _ _ HK HR H) as (A & B & _ & _ & E & _).
  split; [intros x X; apply D, B, X|]. intros r I. split; [|intros a; apply A, I]. destruct (E r I) as (r0 & I0 & P). apply Permutation_length in P. rewrite !map_length in P.
  rewrite P. apply V, I0.
Qed.
Lemma rows_sound m p t t' : sound m p t -> (forall r, In r t' -> In r t) -> sound m p t'.
Proof. intros (D & V) H. split; [exact D|]. intros r I. apply V, H, I. Qed.
Lemma drop_incl del (t : list row) r : In r (drop_rows del t) -> In r t.
Proof. intros I. unfold drop_rows in I. apply in_map_iff in I. destruct I as (e & <- & I). apply filter_In in I. destruct I as (I & _). apply in_seq in I. apply nth_In. lia. Qed.
Lemma kept_incl qu q bele (t : list row) r : In r (kept_rows qu q bele t) -> In r t.
Proof. intros I. unfold kept_rows in I. apply in_map_iff in I. destruct I as (e & <- & I). apply filter_In in I. destruct I as (I & _). apply in_seq in I. apply nth_In. lia. Qed.

Section Backend.
Variables B B' : backend.
Hypothesis HB : moved_backend v B B'.
Hypothesis SB : sound_backend n B.
Let Htri := proj1 HB.
Let Hkey := proj1 (proj2 HB).
Let Hsolve := proj1 (proj2 (proj2 HB)).
Let HuK := proj1 (proj2 (proj2 (proj2 HB))).
Let HuR := proj1 (proj2 (proj2 (proj2 (proj2 HB)))).
Let Hve := proj1 (proj2 (proj2 (proj2 (proj2 (proj2 HB))))).

Lemma run_fix_tr p t : run_fix B' (trp p) t = tr_result v (run_fix B p t).
Proof.
  unfold run_fix. rewrite (fix_tr (b_uniqK B) (b_uniqR B) _ _ (b_key B p) _ p t HuK HuR (Hkey p)).
  destruct (fix_mesh _ _ _ p t true true) as [[[p' t'] j]|e]; reflexivity.
Qed.
Lemma run_fix_sound m p t p' t' : sound m p t -> run_fix B p t = Ok (p', t') -> sound m p' t'.
Proof.
  intros SD H. unfold run_fix in H. destruct (fix_mesh _ _ _ p t true true) as [[[p1 t1] j]|e] eqn:E; [|discriminate]. injection H as <- <-.
  apply (fix_sound m _ _ _ _ _ _ _ _ (proj1 SB) (proj1 (proj2 SB)) SD E).
Qed.
Lemma bvert_tr dim t : get_boundary_vertices (b_uniqR B') dim t = get_boundary_vertices (b_uniqR B) dim t.
Proof. unfold get_boundary_vertices, get_boundary_edges, get_boundary_facets, rows_with_count. rewrite !HuR. reflexivity. Qed.
Lemma run_delete_tr q p t : run_delete B' q (trp p) t = tr_result v (run_delete B q p t).
Proof.
  unfold run_delete, delete_boundary_entities, get_boundary_entities. rewrite bvert_tr, Hve.
  destruct (vtoe_result (b_ve B t)) as (vtoe, ptr).
  set (bele := unique_nat _).
  assert (kept_rows (entity_qual (trp p) t) q bele t = kept_rows (entity_qual p t) q bele t) as ->.
  { unfold kept_rows. f_equal. apply filter_ext. intros e. f_equal. f_equal. apply filter_ext. intros e'. rewrite entity_qual_tr. reflexivity. }
  rewrite (fix_tr (b_uniqK B) (b_uniqR B) _ _ (b_key B p) _ p _ HuK HuR (Hkey p)).
  destruct (fix_mesh _ _ _ p _ true true) as [[[p' t'] j]|e]; reflexivity.
Qed.
Lemma run_delete_sound m q p t p' t' : sound m p t -> run_delete B q p t = Ok (p', t') -> sound m p' t'.
Proof.
  intros SD H. unfold run_delete, delete_boundary_entities in H. destruct (fix_mesh _ _ _ p _ true true) as [[[p1 t1] j]|e] eqn:E; [|discriminate]. injection H as <- <-.
  apply (fix_sound m _ _ _ _ _ _ _ _ (proj1 SB) (proj1 (proj2 SB))) in E; [exact E|]. apply (rows_sound m p t); [exact SD|]. intros r. apply kept_incl.
Qed.
Lemma lint_tr p t l : lint_delete (trp p) t l = lint_delete p t l.
Proof. unfold lint_delete. f_equal. apply map_ext. intros e. rewrite !entity_qual_tr. reflexivity. Qed.
Lemma manifold_tr dim k t : is_manifold (b_uniqR B') dim k t = is_manifold (b_uniqR B) dim k t.
Proof. unfold is_manifold, get_boundary_edges, rows_with_count. rewrite HuR. reflexivity. Qed.
Lemma linter_tr q p t : sound n p t -> linter B' n q (trp p) t = tr_result v (linter B n q p t).
Proof.
  intros SD. unfold linter. rewrite overlap_tr, lint_tr, Hve, run_fix_tr by exact SD.
  destruct (run_fix B p _) as [[p1 t1]|e]; [|reflexivity]. cbn [tr_result rbind fst snd]. destruct (n =? 2)%nat.
  - rewrite run_delete_tr. destruct (run_delete B q p1 t1) as [[p2 t2]|e]; [|reflexivity]. cbn [tr_result rbind fst snd].
    rewrite manifold_tr. destruct (is_manifold _ 2 2 t2); [|reflexivity]. cbn [rbind snd]. destruct t2; reflexivity.
  - cbn [rbind snd]. destruct t1; reflexivity.
Qed.
Lemma linter_sound q p t p' t' : sound n p t -> linter B n q p t = Ok (p', t') -> sound n p' t'.
Proof.
  intros SD. unfold linter. destruct (run_fix B p _) as [[p1 t1]|e] eqn:E; [|discriminate]. cbn [rbind fst snd].
  apply run_fix_sound with (m := n) in E; [|apply (rows_sound n p t); [exact SD|intros r; apply drop_incl]]. destruct (n =? 2)%nat.
  - destruct (run_delete B q p1 t1) as [[p2 t2]|e] eqn:E2; [|discriminate]. apply run_delete_sound with (m := n) in E2; [|exact E]. cbn [rbind fst snd].
    destruct (is_manifold _ 2 2 t2); [|discriminate]. cbn [rbind snd]. destruct t2; [discriminate|]. intros H. injection H as <- <-. exact E2.
  - cbn [rbind snd]. destruct t1; [discriminate|]. intros H. injection H as <- <-. exact E.
Qed.
Lemma termination_tr sm ck p t : sound n p t -> termination B' n sm ck (trp p) t = tr_result v (termination B n sm ck p t).
Proof.
  intros SD. unfold termination. destruct (n =? 2)%nat.
  - rewrite run_fix_tr. destruct (run_fix B p t) as [[p1 t1]|e] eqn:E1; [|reflexivity]. cbn [tr_result rbind fst snd].
    rewrite run_delete_tr. destruct (run_delete B (15 / 100) p1 t1) as [[p2 t2]|e] eqn:E2; [|reflexivity]. cbn [tr_result rbind fst snd].
    pose proof (run_delete_sound n _ _ _ _ _ (run_fix_sound n _ _ _ _ SD E1) E2) as S2.
    rewrite Hsolve. destruct sm; cbn [rbind fst snd]; destruct ck; try apply run_fix_tr; apply linter_tr; [|exact S2].
    destruct (proj2 (proj2 (proj2 SB)) p2 t2 S2) as (D & L). split; [exact D|]. rewrite L. apply S2.
  - cbn [rbind fst snd]. destruct ck; [apply linter_tr, SD|apply run_fix_tr].
Qed.
Lemma termination_sound sm ck p t p' t' : sound n p t -> termination B n sm ck p t = Ok (p', t') -> sound n p' t'.
Proof.
  intros SD. unfold termination. destruct (n =? 2)%nat.
  - destruct (run_fix B p t) as [[p1 t1]|e] eqn:E1; [|discriminate]. cbn [rbind fst snd].
    destruct (run_delete B (15 / 100) p1 t1) as [[p2 t2]|e] eqn:E2; [|discriminate]. cbn [rbind fst snd].
    pose proof (run_delete_sound n _ _ _ _ _ (run_fix_sound n _ _ _ _ SD E1) E2) as S2.
    assert (SS : sound n (b_solve B p2 t2) t2). { destruct (proj2 (proj2 (proj2 SB)) p2 t2 S2) as (D & L). split; [exact D|]. rewrite L. apply S2. }
    destruct sm; cbn [rbind fst snd]; destruct ck; intros H; eauto using linter_sound, run_fix_sound.
  - cbn [rbind fst snd]. destruct ck; intros H; eauto using linter_sound, run_fix_sound.
Qed.
End Backend.

(** nearest vertex *)
Lemma closest_tr q p : closest_node (tr q) (trp p) = closest_node q p.
Proof. unfold closest_node, Translate.trp. rewrite map_map. f_equal. apply map_ext. intros r. apply sq2_tr. Qed.
(** bar forces *)
Lemma bar_len_tr p e : bar_len (trp p) e = bar_len p e.
Proof. unfold bar_len. rewrite !nth_trp, sub_len_tr. reflexivity. Qed.
Lemma bar_vec_tr p e : bar_vec (trp p) e = bar_vec p e.
Proof. unfold bar_vec. rewrite !nth_trp. apply minus_tr. Qed.
Lemma mid_tr p e : mid (trp p) e = tr (mid p e).
Proof. unfold mid. rewrite !nth_trp. apply map2_tr2. intros a b d. field. Qed.
Definition ends_in (p : list pt) (es : list (nat * nat)) : Prop := forall e, In e es -> (fst e < length p)%nat /\ (snd e < length p)%nat.
Lemma mid_len p e : in_space n p -> (fst e < length p)%nat -> (snd e < length p)%nat -> length (mid p e) = n.
Proof. intros D A B. unfold mid, map2. rewrite map_length, combine_length, (D _ (nth_In p [] A)), (D _ (nth_In p [] B)). lia. Qed.
Lemma bars_ends (p : list pt) t : (2 <= n)%nat -> sound n p t -> ends_in p (bars n t).
Proof.
  intros N (_ & V) (a, b) I. unfold bars in I. apply (proj2 (proj2 (unique_edges_spec _))) in I. destruct I as (e & I & E).
  unfold gen_edges in I. apply in_flat_map in I. destruct I as (ix & I1 & I2). apply in_map_iff in I2. destruct I2 as (r & <- & Ir). destruct (V r Ir) as (L & A).
  assert (G : exists i j, ix = [i; j] /\ (i < length r)%nat /\ (j < length r)%nat).
  { rewrite L. apply in_app_iff in I1. destruct I1 as [I1|I1].
    - cbn in I1. destruct I1 as [<- |[<- |[<- |[]]]]; eexists; eexists; (split; [reflexivity|]); lia.
    - destruct (Nat.eqb_spec n 3) as [E3|E3]; [|destruct I1]. rewrite E3. cbn in I1. destruct I1 as [<- |[<- |[<- |[]]]]; eexists; eexists; (split; [reflexivity|]); lia. }
  destruct G as (i & j & -> & Li & Lj). unfold pick, norm_edge in E. cbn [map] in E. injection E as <- <-. cbn [fst snd].
  pose proof (A _ (nth_In r 0%nat Li)). pose proof (A _ (nth_In r 0%nat Lj)). lia.
Qed.
Lemma scale_tr dim f g p es : moved v f g -> in_space n p -> ends_in p es -> scale dim g (trp p) es = scale dim f p es.
Proof.
  intros F D EE. unfold scale. f_equal. f_equal; f_equal; apply map_ext_in; intros e I; [apply bar_len_tr|]. rewrite mid_tr. apply F, mid_len; [exact D|apply EE, I|apply EE, I].
Qed.
Lemma forces_tr f g m p t : moved v f g -> (2 <= n)%nat -> sound n p t -> compute_forces n g m (trp p) t = compute_forces n f m p t.
Proof.
  intros F N SD. pose proof (bars_ends p t N SD) as EE. unfold compute_forces. rewrite length_trp. apply map_ext. intros a. apply map_ext. intros j. f_equal. apply map_ext_in. intros e I.
  assert (force_vec n g m (trp p) (bars n t) e j = force_vec n f m p (bars n t) e j) as ->; [|reflexivity].
  unfold force_vec, bar_force, desired. rewrite (scale_tr n f g p _ F (proj1 SD) EE), bar_len_tr, bar_vec_tr, mid_tr, F; [reflexivity|]. apply mid_len; [apply SD|apply EE, I|apply EE, I].
Qed.
Lemma move_points_tr dt p F : move_points dt (trp p) F = trp (move_points dt p F).
Proof.
  unfold move_points, Translate.trp. revert F. induction p as [|x p IH]; intros [|y F]; try reflexivity. cbn [map]. rewrite !map2_cons. cbn [map]. rewrite IH.
  f_equal. apply map2_tr. intros; ring.
Qed.
(** Newton steps *)
Lemma map2_len' {A B D} (f : A -> B -> D) l : forall m, length (map2 f l m) = Nat.min (length l) (length m).
Proof. intros m. unfold map2. rewrite map_length, combine_length. reflexivity. Qed.
Lemma dgrads_tr f g deps x : moved v f g -> length x = n -> dgrads g deps (tr x) = dgrads f deps x.
Proof.
  intros F L. unfold dgrads. rewrite length_tr. apply map_ext. intros i. rewrite (map2_tr Rplus) by (intros; ring).
  rewrite !F by (rewrite ?map2_len'; unfold deps_vec; rewrite ?map_length, ?seq_length, ?L; lia). reflexivity.
Qed.
Lemma newton_tr f g deps al x : moved v f g -> length x = n -> newton g deps al (tr x) = tr (newton f deps al x).
Proof. intros F L. unfold newton. rewrite (dgrads_tr f g deps x F L), F by exact L. apply map2_tr. intros; ring. Qed.
Lemma project_back_tr f g deps h idx p : moved v f g -> in_space n p -> project_back g deps h idx (trp p) = trp (project_back f deps h idx p).
Proof.
  intros F D. unfold project_back, Translate.trp. rewrite !map_map. apply map_ext_in. intros x I. rewrite F by apply D, I. destruct (outside_band h idx (f x)); [|reflexivity]. apply newton_tr; [exact F|apply D, I].
Qed.
Lemma newton_len f deps al x : length (newton f deps al x) = length x.
Proof. unfold newton, dgrads. rewrite map2_len', map_length, seq_length. lia. Qed.
Lemma project_back_space m f deps h idx p : in_space m p -> in_space m (project_back f deps h idx p).
Proof. intros D x I. unfold project_back in I. apply in_map_iff in I. destruct I as (y & <- & I). destruct (outside_band _ _ _); [rewrite newton_len|]; apply D, I. Qed.
Lemma levels_tr deps h l m : Forall2 (moved v) l m -> forall idx p, in_space n p -> project_levels deps h idx m (trp p) = trp (project_levels deps h idx l p).
Proof.
  induction 1 as [|f g l m F _ IH]; intros idx p D; cbn [project_levels]; [reflexivity|]. rewrite (project_back_tr f g) by assumption. apply IH, project_back_space, D.
Qed.
Lemma improve_loop_tr f g deps bid its : moved v f g -> forall al p, in_space n p -> improve_loop g deps bid its al (trp p) = trp (improve_loop f deps bid its al p).
Proof.
  intros F. induction its as [|it its IH]; intros al p D; cbn [improve_loop]; [reflexivity|]. rewrite <- IH.
  - f_equal. rewrite length_trp. unfold Translate.trp at 3. rewrite map_map. apply map_ext_in. intros a I. apply in_seq in I. rewrite nth_trp. destruct (existsb _ bid); [|reflexivity].
    apply newton_tr; [exact F|]. apply D, nth_In. lia.
  - intros x I. apply in_map_iff in I. destruct I as (a & <- & I). apply in_seq in I. destruct (existsb _ bid); [rewrite newton_len|]; apply D, nth_In; lia.
Qed.
(** the space is kept *)
Lemma levels_space m deps h l : forall idx p, in_space m p -> in_space m (project_levels deps h idx l p).
Proof. induction l as [|f l IH]; intros idx p D; cbn [project_levels]; [exact D|]. apply IH, project_back_space, D. Qed.
Lemma improve_loop_sound m f deps bid its t : forall al p, sound m p t -> sound m (improve_loop f deps bid its al p) t.
Proof.
  induction its as [|it its IH]; intros al p SD; cbn [improve_loop]; [exact SD|]. apply IH. destruct SD as (D & V). split.
  - intros x I. apply in_map_iff in I. destruct I as (a & <- & I). apply in_seq in I. destruct (existsb _ bid); [rewrite newton_len|]; apply D, nth_In; lia.
  - intros r I. rewrite map_length, seq_length. apply V, I.
Qed.
Lemma force_step_space dim f m dt ix p t : in_space dim p -> in_space dim (force_step dim f m dt ix p t).
Proof.
  intros D x I. unfold force_step, move_points, map2 in I. apply in_map_iff in I. destruct I as ((a, b) & <- & I). cbn [fst snd].
  pose proof (in_combine_l _ _ _ _ I) as Ia. pose proof (in_combine_r _ _ _ _ I) as Ib. fold (map2 (fun x0 f0 => x0 + dt * f0) a b). rewrite map2_len', (D a Ia).
  unfold zero_rows in Ib. apply in_map_iff in Ib. destruct Ib as (w & <- & Iw). apply in_seq in Iw.
  assert (length (nth w (compute_forces dim f m p t) []) = dim) as E.
  { assert (In (nth w (compute_forces dim f m p t) []) (compute_forces dim f m p t)) as J by (apply nth_In; lia).
    unfold compute_forces in J at 2. apply in_map_iff in J. destruct J as (u & <- & _). rewrite map_length, seq_length. reflexivity. }
  destruct (existsb _ ix); rewrite ?map_length, E; lia.
Qed.

(** the loop *)
Definition moved_problem (P P' : problem) : Prop :=
  g_dim P' = g_dim P /\ moved v (g_fd P) (g_fd P') /\ moved v (g_fh P) (g_fh P') /\ g_h0 P' = g_h0 P /\ g_deps P' = g_deps P /\
  g_geps P' = g_geps P /\ g_delta_t P' = g_delta_t P /\ g_pfix P' = trp (g_pfix P) /\ moved_levels v (g_subs P) (g_subs P') /\
  g_max_iter P' = g_max_iter P /\ g_checks P' = g_checks P /\ g_improve P' = g_improve P.
Lemma ifix_tr P P' p : g_pfix P' = trp (g_pfix P) -> ifix_of P' (trp p) = ifix_of P p.
Proof. intros E. unfold ifix_of. rewrite E. unfold Translate.trp at 2. rewrite map_map. apply map_ext. intros f. apply closest_tr. Qed.
Lemma loop_tr B B' P P' : moved_backend v B B' -> sound_backend n B -> moved_problem P P' -> g_dim P = n -> (2 <= n)%nat -> forall fuel count p, in_space n p ->
  mesh_loop B' P' fuel count (trp p) = tr_outcome v (mesh_loop B P fuel count p).
Proof.
  intros HB SB (Ed & F & H & Eh & Ee & Eg & Et & Ep & HS & Em & Ec & Ei) DN N2. induction fuel as [|k IH]; intros count p D; [reflexivity|].
  cbn [mesh_loop]. rewrite (proj1 HB). pose proof (proj1 (proj2 (proj2 SB)) count p D) as SD. destruct (b_tri B count p) as (p1, t0). cbn [fst snd] in *.
  destruct p1 as [|q p1]; [reflexivity|]. set (pp := q :: p1) in *. assert (PN : exists a b, trp pp = a :: b) by (eexists; eexists; reflexivity). clearbody pp.
  destruct PN as (a & b & PN). rewrite PN at 1. clear PN a b. rewrite Ed, Eg, Em, DN. rewrite (remove_tr (g_fd P)) by assumption.
  pose proof (remove_sound n (g_fd P) (g_geps P) pp t0 SD) as S1.
  set (t1 := remove_outside n (g_fd P) (g_geps P) pp t0) in *. destruct (Reqb (INR count) (g_max_iter P - 1)).
  - cbn [tr_outcome]. f_equal. f_equal. unfold finish. rewrite Ed, Ec, Ei, DN.
    assert (match g_subs P' with None => g_improve P | Some _ => false end = match g_subs P with None => g_improve P | Some _ => false end) as ->.
    { unfold moved_levels in HS. destruct (g_subs P), (g_subs P'); try contradiction; reflexivity. }
    rewrite (termination_tr B B' HB SB) by exact S1. destruct (termination B _ _ _ pp t1) as [[p2 t2]|e] eqn:ET; [|reflexivity]. cbn [tr_result rbind fst snd].
    pose proof (termination_sound B SB _ _ _ _ _ _ S1 ET) as S2.
    unfold improve_level_set. rewrite (bvert_tr B B' HB). destruct (get_boundary_vertices (b_uniqR B) n t2) as [|w bid]; [reflexivity|].
    cbn [rbind]. rewrite Ee, (improve_loop_tr (g_fd P)) by (assumption || apply S2). rewrite Eh. cbn [tr_result]. f_equal. f_equal.
    apply remove_tr; [exact F|]. apply improve_loop_sound, S2.
  - rewrite (ifix_tr P P' pp Ep), (forces_tr (g_fh P)), Et, Eh by assumption.
    destruct (Rltb _ (1000 * g_h0 P)); [|reflexivity].
    rewrite <- IH.
    + f_equal. unfold next_points. rewrite Ed, Ee, Eh, Et. rewrite (ifix_tr P P' pp Ep).
      unfold force_step at 1. rewrite DN, (forces_tr (g_fh P)), move_points_tr by assumption.
      apply levels_tr; [|apply force_step_space, SD]. constructor; [exact F|]. unfold moved_levels in HS. destruct (g_subs P), (g_subs P'); try contradiction; [exact HS|constructor].
    + unfold next_points. apply levels_space. rewrite DN. apply force_step_space, SD.
Qed.

(** boxes *)
End Move.
Lemma length_trb : forall v b, length (trb v b) = length b.
Proof. induction v as [|d v IH]; intros [|x [|y b]]; cbn [trb length]; try reflexivity. rewrite IH. reflexivity. Qed.
Lemma minmax_tr : forall v a b, length a = (2 * length v)%nat -> length b = (2 * length v)%nat -> minmax_box false (trb v a) (trb v b) = trb v (minmax_box false a b).
Proof.
  induction v as [|d v IH]; intros a b LA LB; [reflexivity|]. destruct a as [|x [|x' a]]; cbn [length] in LA; try lia. destruct b as [|y [|y' b]]; cbn [length] in LB; try lia.
  cbn [trb minmax_box negb]. rewrite IH by lia. f_equal; [|f_equal].
  - unfold Rmin. destruct (Rle_dec x y), (Rle_dec (x + d) (y + d)); lra.
  - unfold Rmax. destruct (Rle_dec x' y'), (Rle_dec (x' + d) (y' + d)); lra.
Qed.
Lemma minmax_len : forall a b up, length a = length b -> length (minmax_box up a b) = length a.
Proof. induction a as [|x a IH]; intros [|y b] up L; try discriminate L; [reflexivity|]. cbn [minmax_box length] in *. rewrite IH by lia. reflexivity. Qed.
Lemma trb_inj : forall v a b, length a = length b -> trb v a = trb v b -> a = b.
Proof.
  induction v as [|d v IH]; intros a b L E; [exact E|]. destruct a as [|x [|x' a]], b as [|y [|y' b]]; try discriminate L; try exact E.
  cbn [trb] in E. injection E as E1 E2 E3. cbn [length] in L. f_equal; [lra|]. f_equal; [lra|]. apply IH; [lia|exact E3].
Qed.
Lemma box_eqb_tr v a b : length a = length b -> box_eqb (trb v a) (trb v b) = box_eqb a b.
Proof.
  intros L. unfold box_eqb. destruct (list_eq_dec Req_EM_T a b) as [Q|N], (list_eq_dec Req_EM_T (trb v a) (trb v b)) as [E|M]; try reflexivity.
  - exfalso. apply M. rewrite Q. reflexivity.
  - exfalso. apply N, (trb_inj v); assumption.
Qed.
Definition moved_fd (v : list R) (a b : option (pt -> R)) : Prop := match a, b with Some f, Some g => moved v f g | None, None => True | _, _ => False end.
Lemma rect_tr d0 d1 x1 x2 y1 y2 : moved [d0; d1] (c_drectangle (fun t => t) x1 x2 y1 y2) (c_drectangle (fun t => t) (x1 + d0) (x2 + d0) (y1 + d1) (y2 + d1)).
Proof.
  intros q. destruct q as [|x [|y [|z ?]]]; try reflexivity. cbn [tr c_drectangle].
  replace (- (y1 + d1) + (y + d1)) with (- y1 + y) by ring. replace (- (x1 + d0) + (x + d0)) with (- x1 + x) by ring.
  replace (y2 + d1 - (y + d1)) with (y2 - y) by ring. replace (x2 + d0 - (x + d0)) with (x2 - x) by ring. reflexivity.
Qed.
Lemma block_tr d0 d1 d2 x1 x2 y1 y2 z1 z2 : moved [d0; d1; d2] (c_dblock (fun t => t) x1 x2 y1 y2 z1 z2)
  (c_dblock (fun t => t) (x1 + d0) (x2 + d0) (y1 + d1) (y2 + d1) (z1 + d2) (z2 + d2)).
Proof.
  intros q. destruct q as [|x [|y [|z [|? ?]]]]; try reflexivity. cbn [tr c_dblock].
  replace (- (y1 + d1) + (y + d1)) with (- y1 + y) by ring. replace (- (x1 + d0) + (x + d0)) with (- x1 + x) by ring. replace (- (z1 + d2) + (z + d2)) with (- z1 + z) by ring.
  replace (y2 + d1 - (y + d1)) with (y2 - y) by ring. replace (x2 + d0 - (x + d0)) with (x2 - x) by ring. replace (z2 + d2 - (z + d2)) with (z2 - z) by ring. reflexivity.
Qed.
Lemma prim_moved v dim b k f b' k' g keep : moved v f g -> moved v (d_eval (make_prim dim no_manip b k f keep)) (d_eval (make_prim dim no_manip b' k' g keep)).
Proof. intros F x. rewrite !no_manip_eval. apply F. Qed.
Lemma box_fd_tr v b : length b = (2 * length v)%nat -> moved_fd v (box_fd b) (box_fd (trb v b)).
Proof.
  intros L. destruct v as [|d0 [|d1 [|d2 [|d3 v]]]]; destruct b as [|a0 [|a1 [|a2 [|a3 [|a4 [|a5 [|a6 b]]]]]]]; cbn [length] in L; try lia; cbn [trb box_fd moved_fd]; try exact Logic.I.
  - apply prim_moved, rect_tr.
  - apply prim_moved, block_tr.
  - destruct b; cbn [trb]; exact Logic.I.
Qed.
Lemma filter_map_in {A B} (h : A -> B) (q : A -> bool) (p : B -> bool) l : (forall x, In x l -> p (h x) = q x) -> filter p (map h l) = map h (filter q l).
Proof.
  induction l as [|x l IH]; intros H; [reflexivity|]. cbn [map filter]. rewrite (H x) by (left; reflexivity). rewrite IH by (intros; apply H; right; assumption). destruct (q x); reflexivity.
Qed.
Section Prepare.
Variable v : list R.
Notation n := (length v).
Notation tr := (tr v). Notation trp := (trp v).
Lemma dom_tr d d' : moved_domain v d d' -> dom_bbox d' = trb v (dom_bbox d) /\ dom_corners d' = option_map trp (dom_corners d) /\ moved v (dom_fd d) (dom_fd d').
Proof. intros [o o' E1 E2 F|f f' b F]; cbn; auto. Qed.
Lemma size_tr s s' : moved_size v s s' -> size_bbox s' = option_map (trb v) (size_bbox s) /\ size_hmin s' = size_hmin s /\ moved v (size_fh s) (size_fh s').
Proof. intros [b h f f' F|f f' F|h]; cbn; repeat split; try assumption; intros x; reflexivity. Qed.
Lemma full_tr' d d' s s' : moved_domain v d d' -> moved_size v s s' -> length (dom_bbox d) = (2 * n)%nat -> (forall b, size_bbox s = Some b -> length b = (2 * n)%nat) ->
  full_bbox d' s' = trb v (full_bbox d s) /\ length (full_bbox d s) = (2 * n)%nat.
Proof.
  intros D S LD LS. destruct (dom_tr d d' D) as (E & _ & _). destruct (size_tr s s' S) as (Eb & _). unfold full_bbox. rewrite Eb, E.
  destruct (size_bbox s) as [b|]; cbn [option_map]; [|split; [reflexivity|exact LD]]. specialize (LS b eq_refl).
  split; [apply minmax_tr; assumption|]. rewrite minmax_len; congruence.
Qed.
Lemma full_tr d d' s s' o : moved_domain v d d' -> moved_size v s s' -> inputs_in_space n d s o -> full_bbox d' s' = trb v (full_bbox d s) /\ length (full_bbox d s) = (2 * n)%nat.
Proof. intros D S (LD & LS & _). apply full_tr'; assumption. Qed.
Lemma meshed_tr d d' s s' o : moved_domain v d d' -> moved_size v s s' -> inputs_in_space n d s o -> moved_fd v (meshed_fd d s) (meshed_fd d' s').
Proof.
  intros D S II. destruct (full_tr d d' s s' o D S II) as (EF & LF). unfold meshed_fd. rewrite EF. destruct (dom_tr d d' D) as (E & _ & F). destruct (size_tr s s' S) as (Eb & _). rewrite Eb, E.
  destruct II as (LD & LS & _). destruct (size_bbox s) as [b1|]; cbn [option_map]; [|exact F]. specialize (LS b1 eq_refl).
  rewrite box_eqb_tr by congruence. destruct (box_eqb _ b1); [exact F|apply box_fd_tr, LF].
Qed.
Lemma used_space d s dim o : inputs_in_space n d s o -> in_space n (used_corners d s dim).
Proof.
  intros (_ & _ & HC & _) x I. unfold used_corners in I. destruct (dom_corners d) as [c|]; [|destruct I]. specialize (HC c eq_refl). destruct s; try (apply HC, I); destruct (dim =? 3)%nat; try (apply HC, I); destruct I.
Qed.
Lemma fixed_tr d d' s s' dim f g deps o o' : moved_domain v d d' -> moved_size v s s' -> moved v f g -> o_pfix o' = trp (o_pfix o) -> inputs_in_space n d s o ->
  fixed_points d' s' dim g deps o' = trp (fixed_points d s dim f deps o).
Proof.
  intros D S F E II. unfold fixed_points. rewrite E. unfold Translate.trp at 2. rewrite map_app. f_equal. unfold kept_corners.
  rewrite <- (filter_map_in tr (fun x => Rgtb (f x) (-1000 * deps)) (fun x => Rgtb (g x) (-1000 * deps))) by (intros x I; rewrite F by apply (used_space d s dim o II x I); reflexivity). f_equal.
  unfold used_corners. destruct (dom_tr d d' D) as (_ & -> & _). destruct S; destruct (dom_corners d); try reflexivity; cbn [option_map]; destruct (dim =? 3)%nat; reflexivity.
Qed.
Lemma fixed_space d s dim f deps o : inputs_in_space n d s o -> in_space n (fixed_points d s dim f deps o).
Proof.
  intros (_ & _ & HC & HP & _) x I. unfold fixed_points in I. apply in_app_iff in I. destruct I as [I|I]; [apply HP, I|]. apply filter_In in I. destruct I as (I & _).
  unfold used_corners in I. destruct (dom_corners d) as [c|]; [|destruct I]. specialize (HC c eq_refl). destruct s; try (apply HC, I); destruct (dim =? 3)%nat; try (apply HC, I); destruct I.
Qed.
Lemma n_nodes_tr a b h d : n_nodes (a + d) (b + d) h = n_nodes a b h.
Proof. unfold n_nodes. replace (b + d - (a + d)) with (b - a) by ring. reflexivity. Qed.
Lemma node_tr a h k d : node (a + d) h k = node a h k + d.
Proof. unfold node. ring. Qed.
Lemma stagger2_tr d0 d1 h b0 b1 : staggered2 h (fst b0 + d0, snd b0 + d0) (fst b1 + d1, snd b1 + d1) = map (Translate.tr [d0; d1]) (staggered2 h b0 b1).
Proof.
  unfold staggered2. cbn [fst snd]. replace (snd b0 + d0 + h) with (snd b0 + h + d0) by ring. replace (snd b1 + d1 + h) with (snd b1 + h + d1) by ring. rewrite !n_nodes_tr.
  rewrite map_flat_map. apply flat_map_ext. intros i. rewrite map_map. apply map_ext. intros j. rewrite !node_tr. cbn [Translate.tr]. f_equal. f_equal. ring.
Qed.
Lemma stagger3_tr d0 d1 d2 h b0 b1 b2 : staggered3 h (fst b0 + d0, snd b0 + d0) (fst b1 + d1, snd b1 + d1) (fst b2 + d2, snd b2 + d2) = map (Translate.tr [d0; d1; d2]) (staggered3 h b0 b1 b2).
Proof.
  unfold staggered3. cbn [fst snd]. replace (snd b0 + d0 + h) with (snd b0 + h + d0) by ring. replace (snd b1 + d1 + h) with (snd b1 + h + d1) by ring.
  replace (snd b2 + d2 + h) with (snd b2 + h + d2) by ring. rewrite !n_nodes_tr.
  rewrite map_flat_map. apply flat_map_ext. intros i. rewrite map_flat_map. apply flat_map_ext. intros j. rewrite map_map. apply map_ext. intros k. rewrite !node_tr. cbn [Translate.tr].
  f_equal. f_equal; [ring|]. f_equal. ring.
Qed.
Lemma local_span_one b h : local_span b 1 0 h = b.
Proof. destruct b as (x, y). unfold local_span, limit. cbn [fst snd INR]. f_equal; field. Qed.
Lemma grid_points_tr s s' b h : moved_size v s s' -> length b = (2 * n)%nat -> (n = 2%nat \/ n = 3%nat) -> grid_points s' (trb v b) h = trp (grid_points s b h).
Proof.
  intros S L N.
  assert (create_staggered_grid h (pairs_of (trb v b)) = trp (create_staggered_grid h (pairs_of b))) as G.
  { unfold Translate.trp. destruct N as [N|N].
    - destruct v as [|d0 [|d1 [|? ?]]]; try discriminate N. destruct b as [|a0 [|a1 [|a2 [|a3 [|? ?]]]]]; try discriminate L. cbn [trb pairs_of create_staggered_grid].
      apply (stagger2_tr d0 d1 h (a0, a1) (a2, a3)).
    - destruct v as [|d0 [|d1 [|d2 [|? ?]]]]; try discriminate N. destruct b as [|a0 [|a1 [|a2 [|a3 [|a4 [|a5 [|? ?]]]]]]]; try discriminate L. cbn [trb pairs_of create_staggered_grid].
      apply (stagger3_tr d0 d1 d2 h (a0, a1) (a2, a3) (a4, a5)). }
  assert (forall l, make_init_points l 0 1 1 h = create_staggered_grid h l) as IP.
  { intros l. unfold make_init_points. f_equal. apply (nth_ext _ _ (0, 0) (0, 0)); [rewrite map_length, seq_length; reflexivity|]. intros i Li. rewrite map_length, seq_length in Li.
    rewrite (nth_map' _ _ _ (0, 0) 0%nat) by (rewrite seq_length; exact Li). rewrite seq_nth by exact Li. cbn [Nat.add]. rewrite local_span_one. destruct (i =? 1)%nat; reflexivity. }
  destruct S; cbn [grid_points]; rewrite ?IP; exact G.
Qed.
Lemma grid_space s b h : length b = (2 * n)%nat -> in_space n (grid_points s b h).
Proof.
  intros L.
  assert (forall l, (length l <= n)%nat -> length l = n -> in_space n (create_staggered_grid h l)) as G.
  { intros l _ Ll x I. destruct l as [|b0 [|b1 [|b2 [|? ?]]]]; try destruct I; cbn [create_staggered_grid] in I; unfold staggered2, staggered3 in I; cbn [length] in Ll; rewrite <- Ll.
    - apply in_flat_map in I. destruct I as (i & _ & I). apply in_map_iff in I. destruct I as (j & <- & _). reflexivity.
    - apply in_flat_map in I. destruct I as (i & _ & I). apply in_flat_map in I. destruct I as (j & _ & I). apply in_map_iff in I. destruct I as (k & <- & _). reflexivity. }
  assert (forall m c, length c = (2 * m)%nat -> length (pairs_of c) = m) as LP.
  { clear. induction m as [|m IH]; intros c E; [destruct c; [reflexivity|discriminate]|]. destruct c as [|x [|y c]]; cbn [length] in E; try lia. cbn [pairs_of length]. rewrite IH by lia. reflexivity. }
  destruct s; cbn [grid_points]; unfold make_init_points; apply G; rewrite ?map_length, ?seq_length, (LP n b L); lia.
Qed.
Lemma start_tr B B' s s' bbox f g h0 geps pfix o o' : moved_backend v B B' -> moved_size v s s' -> moved v f g -> moved_options v o o' ->
  length bbox = (2 * n)%nat -> (n = 2%nat \/ n = 3%nat) ->
  start_points B' s' n (trb v bbox) g h0 geps (trp pfix) o' = match start_points B s n bbox f h0 geps pfix o with Ok p => Ok (trp p) | Err e => Err e end.
Proof.
  intros HB S F (Ep & Eo & _ & _ & _ & _ & _ & _ & _ & Er) L N. unfold start_points. rewrite Eo. destruct (o_points o) as [p|]; [reflexivity|]. cbn [option_map].
  unfold initial_points. rewrite (grid_points_tr s s' bbox h0 S L N).
  assert (EQ : filter (fun x => Rltb (g x) geps) (trp (grid_points s bbox h0)) = trp (filter (fun x => Rltb (f x) geps) (grid_points s bbox h0))).
  { apply (filter_map_in tr (fun x => Rltb (f x) geps) (fun x => Rltb (g x) geps)). intros x I. rewrite F by apply (grid_space s bbox h0 L x I). reflexivity. }
  rewrite EQ. clear EQ. assert (DQ : in_space n (filter (fun x => Rltb (f x) geps) (grid_points s bbox h0))) by (intros x I; apply filter_In in I; apply (grid_space s bbox h0 L), I).
  set (q := filter (fun x => Rltb (f x) geps) (grid_points s bbox h0)) in *. clearbody q.
  assert (ER : map (size_fh s') (trp q) = map (size_fh s) q).
  { unfold Translate.trp. rewrite map_map. apply map_ext_in. intros x I. apply size_tr; [exact S|apply DQ, I]. }
  assert (EL : length (trp q) = length q) by apply map_length.
  assert (E : forall ix, map (fun i => nth i (trp q) []) ix = trp (map (fun i => nth i q []) ix)) by (intros ix; exact (select_tr v ix q)).
  rewrite ER, EL, E, (proj2 (proj2 (proj2 (proj2 (proj2 (proj2 HB)))))).
  assert (EM : r0m_of o' h0 (map (size_fh s) q) = r0m_of o h0 (map (size_fh s) q)) by (unfold r0m_of; rewrite Er; reflexivity). rewrite EM.
  destruct q as [|x q]; [reflexivity|]. cbv iota. change (trp (x :: q)) with (tr x :: trp q) at 1. cbv iota. f_equal. symmetry. exact (map_app tr pfix _).
Qed.
Lemma start_space B s bbox f h0 geps pfix o p : length bbox = (2 * n)%nat -> in_space n pfix -> (forall q, o_points o = Some q -> in_space n q) ->
  start_points B s n bbox f h0 geps pfix o = Ok p -> in_space n p.
Proof.
  intros L DP DO. unfold start_points. destruct (o_points o) as [q|]; [intros H; injection H as <-; apply DO; reflexivity|].
  unfold initial_points. set (q := filter (fun x => Rltb (f x) geps) (grid_points s bbox h0)).
  assert (DQ : in_space n q) by (intros x I; apply filter_In in I; apply (grid_space s bbox h0 L), I). clearbody q.
  destruct q as [|x q]; [discriminate|]. set (qq := x :: q) in *. clearbody qq.
  intros H. injection H as <-. intros y I. apply in_app_iff in I. destruct I as [I|I]; [apply DP, I|]. apply in_map_iff in I. destruct I as (i & <- & I).
  apply filter_In in I. destruct I as (I & _). apply in_seq in I. apply DQ, nth_In. lia.
Qed.
Lemma prepare_tr B B' d d' s s' o o' : moved_backend v B B' -> moved_domain v d d' -> moved_size v s s' -> moved_options v o o' -> inputs_in_space n d s o ->
  match prepare B d s o with
  | Ok (P, p) => exists P', prepare B' d' s' o' = Ok (P', trp p) /\ moved_problem v P P' /\ g_dim P = n /\ (2 <= n)%nat /\ in_space n p
  | Err e => prepare B' d' s' o' = Err e
  end.
Proof.
  intros HB D S OO II. pose proof OO as (Ep & Eo & Es & Eh & Em & Ec & Et & Eg & Ei & Er). unfold prepare. destruct (full_tr d d' s s' o D S II) as (EF & LF). rewrite EF, length_trb.
  pose proof (meshed_tr d d' s s' o D S II) as M. unfold moved_fd in M. destruct (meshed_fd d s) as [f|], (meshed_fd d' s') as [g|]; try contradiction; [|reflexivity].
  assert (the_h0 s' o' = the_h0 s o) as ->.
  { unfold the_h0. destruct (size_tr s s' S) as (_ & -> & _). destruct (size_hmin s); [reflexivity|exact Eh]. }
  destruct (the_h0 s o) as [h0|]; [|reflexivity]. destruct (Rltb h0 0); [reflexivity|].
  assert (Nat.div2 (length (full_bbox d s)) = n) as DV by (rewrite LF; apply Nat.div2_double). rewrite DV.
  destruct ((n =? 2)%nat || (n =? 3)%nat) eqn:EN; cbn [negb]; [|reflexivity].
  assert (n = 2%nat \/ n = 3%nat) as N. { apply orb_true_iff in EN. destruct EN as [EN|EN]; apply Nat.eqb_eq in EN; [left|right]; exact EN. }
  rewrite (fixed_tr d d' s s' n f g _ o o' D S M Ep II), Eg, (start_tr B B' s s' _ f g h0 _ _ o o' HB S M OO LF N), Em.
  destruct (start_points B s n _ f h0 _ _ o) as [p|e] eqn:ES; [|reflexivity]. cbn [rbind].
  apply start_space in ES; [|exact LF|apply fixed_space, II|apply II].
  destruct (Rltb (o_max_iter o) 0); [reflexivity|].
  destruct p as [|x p]; [reflexivity|]. eexists. split; [reflexivity|]. split; [|split; [reflexivity|split; [destruct N as [-> | ->]; lia|exact ES]]]. unfold moved_problem. cbn. rewrite Et, Ec, Ei.
  repeat split; try reflexivity; try assumption. apply size_tr, S.
Qed.
Lemma generate_tr B B' d d' s s' o o' fuel : moved_backend v B B' -> sound_backend n B -> moved_domain v d d' -> moved_size v s s' -> moved_options v o o' -> inputs_in_space n d s o ->
  generate_mesh B' d' s' o' fuel = tr_outcome v (generate_mesh B d s o fuel).
Proof.
  intros HB SB D S OO II. unfold generate_mesh. pose proof (prepare_tr B B' d d' s s' o o' HB D S OO II) as P.
  destruct (prepare B d s o) as [[P0 p]|e].
  - destruct P as (P' & -> & SP & DN & N2 & IP). apply loop_tr; assumption.
  - rewrite P. reflexivity.
Qed.
End Prepare.

(** sliver_removal *)
Section Sliver.
Variable v : list R.
Hypothesis V3 : length v = 3%nat.
Local Notation tr := (Translate.tr v).
Local Notation trp := (Translate.trp v).
Lemma dihedral_tr a b d e : dihedral_angle (tr a) (tr b) (tr d) (tr e) = dihedral_angle a b d e.
Proof. unfold dihedral_angle. rewrite !minus_tr. reflexivity. Qed.
Lemma slivers_tr p t lo hi : slivers (trp p) t lo hi = slivers p t lo hi.
Proof.
  unfold slivers. replace (calc_dihedral_angles (trp p) t) with (calc_dihedral_angles p t); [reflexivity|].
  unfold calc_dihedral_angles. apply flat_map_ext. intros r. rewrite pts_tr. unfold cell_angles. apply map_ext. intros i. rewrite !nth_trp. symmetry. apply dihedral_tr.
Qed.
Lemma shift_minus a b d : a + d - (b + d) = a - b. Proof. ring. Qed.
Lemma sphere_grad_tr a b d e : circumsphere_grad (tr a) (tr b) (tr d) (tr e) = circumsphere_grad a b d e.
Proof.
  destruct v as [|v0 [|v1 [|v2 [|? ?]]]]; try discriminate V3.
  destruct a as [|a0 [|a1 [|a2 [|? ?]]]]; try reflexivity. destruct b as [|b0 [|b1 [|b2 [|? ?]]]]; try reflexivity.
  destruct d as [|d0 [|d1 [|d2 [|? ?]]]]; try reflexivity. destruct e as [|e0 [|e1 [|e2 [|? ?]]]]; try reflexivity.
  cbn [Translate.tr]. unfold circumsphere_grad. rewrite !shift_minus. reflexivity.
Qed.
Lemma perturb_tr p r : perturb_of (trp p) r = perturb_of p r.
Proof. unfold perturb_of. rewrite !nth_trp, sphere_grad_tr. reflexivity. Qed.
Lemma perturb_points_tr step h p t sl : perturb_points step h (trp p) t sl = trp (perturb_points step h p t sl).
Proof.
  unfold perturb_points. rewrite length_trp. match goal with |- _ = Translate.trp v ?l => change (Translate.trp v l) with (map tr l) end. rewrite map_map. apply map_ext. intros a. rewrite nth_trp.
  destruct (filter _ (rev sl)) as [|e l]; [reflexivity|]. rewrite perturb_tr. apply map2_tr. intros; ring.
Qed.
Lemma perturb_sound step h p t sl : sound 3 p t -> sound 3 (perturb_points step h p t sl) t.
Proof.
  intros SD. split.
  - intros x I. unfold perturb_points in I. apply in_map_iff in I. destruct I as (a & <- & I). apply in_seq in I.
    assert (LA : length (nth a p []) = 3%nat) by (apply SD, nth_In; lia). destruct (filter _ (rev sl)) as [|e l]; [exact LA|].
    rewrite map2_len', LA. unfold perturb_of. rewrite map_length.
    assert (G : forall i, (i < 4)%nat -> length (nth (nth i (nth e t []) 0%nat) p []) = 3%nat).
    { intros i Li. apply SD, nth_In. destruct (lt_dec e (length t)) as [Le|Le].
      - destruct (proj2 SD _ (nth_In t [] Le)) as (L & A). apply A, nth_In. lia.
      - rewrite (nth_overflow t) by lia. destruct i; cbn; lia. }
    pose proof (G 0%nat ltac:(lia)) as G0. pose proof (G 1%nat ltac:(lia)) as G1. pose proof (G 2%nat ltac:(lia)) as G2. pose proof (G 3%nat ltac:(lia)) as G3.
    destruct (nth (nth 0 _ _) p []) as [|? [|? [|? [|? ?]]]]; try discriminate G0. destruct (nth (nth 1 _ _) p []) as [|? [|? [|? [|? ?]]]]; try discriminate G1.
    destruct (nth (nth 2 _ _) p []) as [|? [|? [|? [|? ?]]]]; try discriminate G2. destruct (nth (nth 3 _ _) p []) as [|? [|? [|? [|? ?]]]]; try discriminate G3. reflexivity.
  - intros r I. unfold perturb_points. rewrite map_length, seq_length. apply SD, I.
Qed.
Lemma sliver_loop_tr B B' S S' : moved_backend v B B' -> sound_backend 3 B -> moved v (s_fd S) (s_fd S') ->
  S' = mkSliver (s_fd S') (s_h0 S) (s_deps S) (s_geps S) (s_lo S) (s_hi S) (s_gamma S) (s_preserve S) (s_max_iter S) (s_checks S) ->
  forall fuel count step old p, in_space 3 p -> sliver_loop B' S' fuel count step old (trp p) = tr_outcome v (sliver_loop B S fuel count step old p).
Proof.
  intros HB SB F ES. revert F. rewrite ES. generalize (s_fd S') as g. clear ES S'. intros g F. cbn [s_fd] in F. induction fuel as [|k IH]; intros count step old p D; [reflexivity|].
  cbn [sliver_loop s_fd s_h0 s_deps s_geps s_lo s_hi s_gamma s_preserve s_max_iter s_checks]. rewrite (proj1 HB).
  pose proof (proj1 (proj2 (proj2 SB)) count p D) as SD. destruct (b_tri B count p) as (p1, t0). cbn [fst snd] in *.
  assert (RM : remove_outside 3 g (s_geps S) (trp p1) t0 = remove_outside 3 (s_fd S) (s_geps S) p1 t0).
  { rewrite <- V3. apply remove_tr; [exact F|]. rewrite V3. exact SD. } rewrite RM. clear RM.
  pose proof (remove_sound 3 (s_fd S) (s_geps S) p1 t0 SD) as S1.
  set (t1 := remove_outside 3 (s_fd S) (s_geps S) p1 t0) in *. clearbody t1. rewrite slivers_tr.
  assert (SB' : sound_backend (length v) B) by (rewrite V3; exact SB).
  destruct (Reqb (INR count) (s_max_iter S - 1)).
  { cbn [tr_outcome]. pose proof (termination_tr v B B' HB SB' false (s_checks S) p1 t1) as T. rewrite V3 in T. rewrite T by exact S1. reflexivity. }
  destruct (slivers p1 t1 (s_lo S) (s_hi S)) as [|e sl]; [cbn [tr_outcome]; rewrite (run_fix_tr v B B' HB); reflexivity|].
  rewrite perturb_points_tr. set (st := new_step _ _ _ _). set (sl' := e :: sl) in *. pose proof (perturb_sound st (s_h0 S) p1 t1 sl' S1) as S2.
  set (p2 := perturb_points st (s_h0 S) p1 t1 sl') in *. clearbody p2. destruct (s_preserve S).
  - unfold improve_level_set. rewrite (bvert_tr v B B' HB). destruct (get_boundary_vertices (b_uniqR B) 3 t1) as [|w bid]; [reflexivity|].
    rewrite (improve_loop_tr v (s_fd S)); [|exact F|rewrite V3; apply S2]. apply IH. apply (improve_loop_sound 3 _ _ _ _ t1), S2.
  - apply IH, S2.
Qed.
End Sliver.
