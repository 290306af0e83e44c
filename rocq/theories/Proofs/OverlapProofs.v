(** do_any_overlap and calc_re_ratios *)
From Coq Require Import List ZArith Reals Bool Arith Lia Lra Permutation.
From Verif Require Import Model.Base Model.SDF Model.Simplex Model.Mesh Model.Formulas Spec.Linear Spec.Geom Spec.MeshTopo Proofs.ListAux Proofs.MeshAux
  Proofs.VtoeProofs Proofs.Euclid Proofs.SDFPrim Proofs.FormulaProofs Proofs.PointInProofs Proofs.SimplexProofs.
Import ListNotations.
Local Open Scope nat_scope.

Lemma count_occ_flat_map {A B} (dec : forall x y : B, {x = y} + {x <> y}) (f : A -> list B) l y :
  count_occ dec (flat_map f l) y = list_sum (map (fun x => count_occ dec (f x) y) l).
Proof. induction l as [|x l IH]; [reflexivity|]. cbn [flat_map map list_sum fold_right]. rewrite count_occ_app, IH. reflexivity. Qed.
Lemma list_sum_one (f : nat -> nat) n i : i < n -> (forall j, j < n -> j <> i -> f j = 0) -> list_sum (map f (seq 0 n)) = f i.
Proof.
  intros Hi H. replace n with (i + (1 + (n - i - 1))) by lia. rewrite seq_app, map_app, list_sum_app. cbn [seq map Nat.add].
  assert (forall a m, (forall j, a <= j < a + m -> f j = 0) -> list_sum (map f (seq a m)) = 0) as Z.
  { intros a m. revert a. induction m as [|m IH]; intros a HH; [reflexivity|]. cbn [seq map list_sum fold_right]. unfold list_sum in IH. rewrite HH by lia. cbn. apply IH. intros. apply HH. lia. }
  rewrite Z by (intros; apply H; lia). cbn [list_sum fold_right]. fold (list_sum (map f (seq (S i) (n - i - 1)))). rewrite Z by (intros; apply H; lia). lia.
Qed.
Lemma list_sum_zero (l : list nat) : (forall x, In x l -> x = 0) -> list_sum l = 0.
Proof. induction l as [|x l IH]; intros H; [reflexivity|]. cbn [list_sum fold_right]. rewrite (H x (or_introl eq_refl)). cbn. apply IH. intros; apply H; right; assumption. Qed.
Definition pair_dec : forall x y : nat * nat, {x = y} + {x <> y}.
Proof. decide equality; apply Nat.eq_dec. Defined.

(** number of common corners *)
Definition shared (r s : list nat) : nat := length (filter (has s) r).
Lemma has_in r v : has r v = true <-> In v r.
Proof. unfold has. rewrite existsb_exists. split; [intros [x [I E]]; apply Nat.eqb_eq in E; congruence|]. intros I. exists v. split; [exact I|apply Nat.eqb_refl]. Qed.
Lemma sum_shared r s : NoDup s -> list_sum (map (count_occ Nat.eq_dec s) r) = shared r s.
Proof.
  intros N. unfold shared. induction r as [|v r IH]; [reflexivity|]. cbn [map list_sum fold_right filter]. unfold list_sum in IH. rewrite IH.
  destruct (has s v) eqn:E.
  - apply has_in in E. rewrite (NoDup_count_occ' Nat.eq_dec) in N. rewrite (N v E). reflexivity.
  - assert (~ In v s) as K by (intros K; apply has_in in K; congruence). apply (count_occ_not_In Nat.eq_dec) in K. rewrite K. reflexivity.
Qed.

Section Overlap.
Variables (dim n : nat) (p : list (list R)) (t : list (list nat)) (ve : list (nat * nat)).
Hypothesis HP : Permutation ve (ve_pairs t).
Hypothesis HA : ascending (map fst ve).
Hypothesis HU : forall v, v < n <-> exists r, In r t /\ In v r.
Hypothesis HD : forall r, In r t -> NoDup r.

Lemma overlap_count i j : count_occ pair_dec (do_any_overlap dim p t ve) (i, j) =
  if (i <? length t) && (j <? length t) && negb (i =? j) && in_entity dim (centroid dim (pts_of p (nth i t []))) p (nth j t [])
  then shared (nth i t []) (nth j t []) else 0.
Proof.
  unfold do_any_overlap. destruct (vtoe_result ve) as [vtoe ptr] eqn:ER.
  rewrite count_occ_flat_map.
  destruct (i <? length t) eqn:Ei.
  2:{ apply Nat.ltb_ge in Ei. apply list_sum_zero. intros x Hx. apply in_map_iff in Hx. destruct Hx as [k [<- Hk]]. apply in_seq in Hk.
      apply count_occ_not_In. intros I. apply in_flat_map in I. destruct I as [e [_ He]]. destruct (k =? e); [destruct He|].
      destruct (in_entity _ _ _ _); cbn in He; [|tauto]. destruct He as [E|[]]. inversion E. lia. }
  apply Nat.ltb_lt in Ei. rewrite (list_sum_one _ _ i Ei).
  2:{ intros k Hk Nk. apply count_occ_not_In. intros I. apply in_flat_map in I. destruct I as [e [_ He]]. destruct (k =? e); [destruct He|].
      destruct (in_entity _ _ _ _); cbn in He; [|tauto]. destruct He as [E|[]]. inversion E. lia. }
  set (g := fun ele => if i =? ele then [] else if in_entity dim (centroid dim (pts_of p (nth i t []))) p (nth ele t []) then [(i, ele)] else []).
  assert (forall e, count_occ pair_dec (g e) (i, j) = if (e =? j) && (negb (i =? j) && in_entity dim (centroid dim (pts_of p (nth i t []))) p (nth j t [])) then 1 else 0) as G.
  { intros e. unfold g. destruct (e =? j) eqn:E.
    - apply Nat.eqb_eq in E. subst e. destruct (i =? j); [reflexivity|]. cbn [negb andb]. destruct (in_entity _ _ _ _); [|reflexivity].
      cbn [count_occ]. destruct (pair_dec (i, j) (i, j)); [reflexivity|contradiction].
    - apply Nat.eqb_neq in E. cbn [andb]. apply count_occ_not_In. destruct (i =? e); [tauto|]. destruct (in_entity _ _ _ _); [|tauto]. intros [K|[]]. inversion K. contradiction. }
  rewrite count_occ_flat_map. rewrite (map_ext _ _ G). cbn [andb]. rewrite <- andb_assoc.
  set (P := negb (i =? j) && in_entity dim (centroid dim (pts_of p (nth i t []))) p (nth j t [])).
  destruct P.
  2:{ rewrite andb_false_r. apply list_sum_zero. intros x Hx. apply in_map_iff in Hx. destruct Hx as [e [<- _]]. rewrite andb_false_r. reflexivity. }
  rewrite andb_true_r.
  assert (forall l, list_sum (map (fun x => if (x =? j) && true then 1 else 0) l) = count_occ Nat.eq_dec l j) as CO.
  { induction l as [|x l IH]; [reflexivity|]. cbn [map list_sum fold_right count_occ]. unfold list_sum in IH. rewrite IH. rewrite andb_true_r.
    destruct (Nat.eqb_spec x j), (Nat.eq_dec x j); try contradiction; reflexivity. }
  rewrite CO, count_occ_flat_map.
  assert (In (nth i t []) t) as It by (apply nth_In, Ei).
  assert (forall v, In v (nth i t []) -> count_occ Nat.eq_dec (slice vtoe (nth v ptr 0) (nth (S v) ptr 0)) j = count_occ Nat.eq_dec (nth j t []) v) as SL.
  { intros v Hv. assert (v < n) as Hn by (apply HU; exists (nth i t []); split; assumption).
    apply (proj2 (vtoe_all_used t n ve vtoe ptr HP HA ER HU ltac:(lia)) v j Hn). }
  rewrite (map_ext_in _ _ _ SL). destruct (j <? length t) eqn:Ej.
  - apply Nat.ltb_lt in Ej. apply sum_shared, HD, nth_In, Ej.
  - apply Nat.ltb_ge in Ej. rewrite (nth_overflow t) by exact Ej. apply list_sum_zero. intros x Hx. apply in_map_iff in Hx. destruct Hx as [v [<- _]]. reflexivity.
Qed.
Lemma overlap_in i j : In (i, j) (do_any_overlap dim p t ve) <->
  i < length t /\ j < length t /\ i <> j /\ (exists v, In v (nth i t []) /\ In v (nth j t [])) /\
  in_entity dim (centroid dim (pts_of p (nth i t []))) p (nth j t []) = true.
Proof.
  rewrite (count_occ_In pair_dec), overlap_count.
  destruct ((i <? length t) && (j <? length t) && negb (i =? j) && in_entity dim (centroid dim (pts_of p (nth i t []))) p (nth j t [])) eqn:E.
  - rewrite !andb_true_iff, negb_true_iff, Nat.eqb_neq, !Nat.ltb_lt in E. destruct E as [[[A B] C] D].
    split.
    + intros S. repeat split; try assumption. unfold shared in S. destruct (filter (has (nth j t [])) (nth i t [])) as [|v l] eqn:F; [cbn in S; lia|].
      assert (In v (filter (has (nth j t [])) (nth i t []))) as I by (rewrite F; left; reflexivity). apply filter_In in I. destruct I as [I1 I2].
      exists v. split; [exact I1|apply has_in, I2].
    + intros [_ [_ [_ [[v [I1 I2]] _]]]]. unfold shared. assert (In v (filter (has (nth j t [])) (nth i t []))) as I by (apply filter_In; split; [exact I1|apply has_in, I2]).
      destruct (filter (has (nth j t [])) (nth i t [])); [destruct I|cbn; lia].
  - split; [lia|]. intros [A [B [C [_ D]]]]. apply Nat.ltb_lt in A, B. apply Nat.eqb_neq in C. rewrite A, B, C, D in E. discriminate.
Qed.
End Overlap.

Local Open Scope R_scope.
Definition mean (d : nat) (s : list (list R)) : list R := combination d (repeat (/ INR (S d)) (S d)) s.
Lemma centroid_mean d s : d = 2%nat \/ d = 3%nat -> simplex_points d s -> centroid d s = mean d s.
Proof.
  intros [-> | ->] H.
  - pts2 s H. unfold mean, centroid. cbn -[INR]. f_equal; [|f_equal]; field; apply not_0_INR; lia.
  - pts3 s H. unfold mean, centroid. cbn -[INR]. f_equal; [|f_equal; [|f_equal]]; field; apply not_0_INR; lia.
Qed.
Lemma mean_length d s : d = 2%nat \/ d = 3%nat -> simplex_points d s -> length (mean d s) = d.
Proof. intros [-> | ->] H; [pts2 s H|pts3 s H]; reflexivity. Qed.
Lemma mean_open d s : d = 2%nat \/ d = 3%nat -> simplex_points d s -> in_open_hull d s (mean d s).
Proof.
  intros D H. exists (repeat (/ INR (S d)) (S d)). split; [rewrite repeat_length; symmetry; apply H|]. split; [|split; [|reflexivity]].
  - apply Forall_forall. intros x Hx. apply repeat_spec in Hx. subst. apply Rinv_0_lt_compat, lt_0_INR. lia.
  - destruct D as [-> | ->]; cbn; lra.
Qed.
Lemma bary2 s q : simplex_points 2 s -> length q = 2%nat -> simp_vol s <> 0 -> exists a b, q = combination 2 [a; b; 1 - a - b] s.
Proof.
  intros H Hq N. pts2 s H. rename r3 into x1, r4 into y1, r1 into x2, r2 into y2, r into x3, r0 into y3.
  match goal with |- exists a b, [?xx; ?yy] = _ => rename xx into x, yy into y end.
  set (den := (y2 - y3) * (x1 - x3) + (x3 - x2) * (y1 - y3)).
  assert (den <> 0) as Nd by (unfold den; cbn in N; intros K; apply N; lra).
  exists (((y2 - y3) * (x - x3) + (x3 - x2) * (y - y3)) / den), (((y3 - y1) * (x - x3) + (x1 - x3) * (y - y3)) / den).
  cbn. f_equal; [|f_equal]; unfold den; field; fold den; exact Nd.
Qed.
Lemma hulls_meet s s' q : simplex_points 2 s -> simplex_points 2 s' -> simp_vol s <> 0 -> in_open_hull 2 s q -> in_hull 2 s' q ->
  exists z, in_open_hull 2 s z /\ in_open_hull 2 s' z.
Proof.
  intros H H' N HO HC. pose proof (mean_length 2 s' (or_introl eq_refl) H') as LM.
  destruct (bary2 s (mean 2 s') H LM N) as [b1 [b2 EB]]. set (b3 := 1 - b1 - b2) in *.
  destruct s as [|p1 [|p2 [|p3 [|? ?]]]]; try (destruct H; discriminate). destruct s' as [|q1 [|q2 [|q3 [|? ?]]]]; try (destruct H'; discriminate).
  unfold in_open_hull, in_hull in *. rewrite in_hull3 in HO, HC. destruct HO as [a1 [a2 [a3 [A1 [A2 [A3 [AT AE]]]]]]]. destruct HC as [c1 [c2 [c3 [C1 [C2 [C3 [CT CE]]]]]]].
  set (m := Rmin a1 (Rmin a2 a3)). assert (0 < m) as Hm by (unfold m; repeat apply Rmin_glb_lt; assumption).
  assert (m <= a1 /\ m <= a2 /\ m <= a3) as [M1 [M2 M3]].
  { unfold m. repeat split; [apply Rmin_l|eapply Rle_trans; [apply Rmin_r|apply Rmin_l]|eapply Rle_trans; [apply Rmin_r|apply Rmin_r]]. }
  set (M := 1 + Rabs (a1 - b1) + Rabs (a2 - b2) + Rabs (a3 - b3)).
  pose proof (Rabs_pos (a1 - b1)). pose proof (Rabs_pos (a2 - b2)). pose proof (Rabs_pos (a3 - b3)).
  assert (1 <= M) as HM by (unfold M; lra).
  set (e := Rmin 1 (m / (2 * M))). assert (0 < m / (2 * M)) as Hq by (apply Rdiv_lt_0_compat; lra).
  assert (0 < e <= 1) as He by (unfold e; split; [apply Rmin_glb_lt; lra|apply Rmin_l]).
  assert (e * M < m) as HeM.
  { assert (e <= m / (2 * M)) by (unfold e; apply Rmin_r). apply Rle_lt_trans with (m / (2 * M) * M); [apply Rmult_le_compat_r; lra|].
    replace (m / (2 * M) * M) with (m / 2) by (field; lra). lra. }
  assert (forall a b, m <= a -> Rabs (a - b) <= M -> 0 < a + e * (b - a)) as PW.
  { intros a b Ha Hab. assert (e * (a - b) <= e * M) by (apply Rmult_le_compat_l; [lra|]; eapply Rle_trans; [apply Rle_abs|exact Hab]). lra. }
  assert (0 < a1 + e * (b1 - a1)) as P1 by (apply PW; [assumption|unfold M; lra]).
  assert (0 < a2 + e * (b2 - a2)) as P2 by (apply PW; [assumption|unfold M; lra]).
  assert (0 < a3 + e * (b3 - a3)) as P3 by (apply PW; [assumption|unfold M; lra]).
  assert (forall c, 0 <= c -> 0 < c + e * (1 / 3 - c)) as PC.
  { intros c Hc. replace (c + e * (1 / 3 - c)) with ((1 - e) * c + e / 3) by field. assert (0 <= (1 - e) * c) by (apply Rmult_le_pos; lra). lra. }
  exists (combination 2 [a1 + e * (b1 - a1); a2 + e * (b2 - a2); a3 + e * (b3 - a3)] [p1; p2; p3]).
  rewrite !in_hull3. split.
  - do 3 eexists. split; [exact P1|]. split; [exact P2|]. split; [exact P3|]. split; [replace a3 with (1 - a1 - a2) by lra; unfold b3; ring|reflexivity].
  - exists (c1 + e * (1 / 3 - c1)), (c2 + e * (1 / 3 - c2)), (c3 + e * (1 / 3 - c3)).
    split; [apply PC, C1|]. split; [apply PC, C2|]. split; [apply PC, C3|]. split; [replace c3 with (1 - c1 - c2) by lra; field|].
    destruct H as [_ H]. destruct H' as [_ H']. repeat match goal with H : Forall _ (_ :: _) |- _ => inversion H; subst; clear H end.
    len_list p1. len_list p2. len_list p3. len_list q1. len_list q2. len_list q3.
    unfold mean in EB. cbn in EB, CE. inversion EB as [[E1 E2]]. inversion CE as [[E3 E4]]. cbn. clear - E1 E2 E3 E4.
    f_equal; [|f_equal].
    + match type of E3 with ?l = ?r0 => match type of E1 with ?l1 = ?r1 => transitivity (l + e * (r1 - l)) end end; [ring|rewrite <- E1, E3; field].
    + match type of E4 with ?l = ?r0 => match type of E2 with ?l1 = ?r1 => transitivity (l + e * (r1 - l)) end end; [ring|rewrite <- E2, E4; field].
Qed.

(** ---- radius-edge ratios ---- *)
Lemma ratios3 ball p t : exists l, calc_re_ratios ball 3 p t = Ok l /\ length l = length t /\
  forall i, (i < length t)%nat -> nth i l 0 = sqrt (ball (pts_of p (nth i t []))) / min_edge p 3 (nth i t []).
Proof.
  unfold calc_re_ratios. cbn [Nat.eqb]. unfold np_div. rewrite !map_length, Nat.eqb_refl. eexists. split; [reflexivity|].
  assert (forall (A : Type) (f g : A -> R) l, map2 Rdiv (map f l) (map g l) = map (fun x => f x / g x) l) as E.
  { intros A f g. induction l as [|x l IH]; [reflexivity|]. unfold map2 in *. cbn. f_equal. exact IH. }
  rewrite E. split; [apply map_length|]. intros i Hi. rewrite (nth_map' _ _ _ 0 []) by exact Hi. reflexivity.
Qed.
Lemma min_list_spec l : l <> [] -> In (min_list l) l /\ forall x, In x l -> min_list l <= x.
Proof.
  induction l as [|x [|y l] IH]; intros N; [contradiction| |].
  - cbn. split; [tauto|]. intros z [-> | []]. lra.
  - destruct (IH ltac:(discriminate)) as [I M]. change (min_list (x :: y :: l)) with (Rmin x (min_list (y :: l))). split.
    + destruct (Rmin_case_strong x (min_list (y :: l)) (fun z => z = x \/ z = min_list (y :: l))) as [E|E]; [tauto|tauto| |]; rewrite E; [left; reflexivity|right; exact I].
    + intros z [<- | Hz]; [apply Rmin_l|]. eapply Rle_trans; [apply Rmin_r|apply M, Hz].
Qed.
Definition tet_pairs (dim : nat) : list (nat * nat) := ([(0,1);(1,2);(2,0)] ++ (if (dim =? 3)%nat then [(0,3);(1,3);(2,3)] else []))%nat.
Lemma min_edge_alt p dim r : min_edge p dim r =
  min_list (map (fun ij => sub_len (nth (nth (fst ij) r 0%nat) p []) (nth (nth (snd ij) r 0%nat) p [])) (tet_pairs dim)).
Proof. unfold min_edge, tet_pairs. destruct (dim =? 3)%nat; reflexivity. Qed.
Lemma min_edge_spec p dim r : dim = 2%nat \/ dim = 3%nat -> length r = S dim -> Forall (fun q => length q = dim) (pts_of p r) ->
  (exists a b, edge_of r a b /\ min_edge p dim r = edist (nth a p []) (nth b p [])) /\
  (forall a b, edge_of r a b -> min_edge p dim r <= edist (nth a p []) (nth b p [])).
Proof.
  intros D L F.
  assert (forall i, (i < length r)%nat -> length (nth (nth i r 0%nat) p []) = dim) as LP.
  { intros i Hi. rewrite Forall_forall in F. apply F. unfold pts_of. apply in_map_iff. exists (nth i r 0%nat). split; [reflexivity|apply nth_In, Hi]. }
  assert (forall i j, (i < length r)%nat -> (j < length r)%nat -> i <> j -> In (i, j) (tet_pairs dim) \/ In (j, i) (tet_pairs dim)) as CP.
  { intros i j Hi Hj N. destruct D as [-> | ->]; rewrite L in Hi, Hj; unfold tet_pairs; cbn [Nat.eqb app].
    - destruct i as [|[|[|?]]]; try lia; destruct j as [|[|[|?]]]; try lia; cbn; tauto.
    - destruct i as [|[|[|[|?]]]]; try lia; destruct j as [|[|[|[|?]]]]; try lia; cbn; tauto. }
  assert (forall i j, In (i, j) (tet_pairs dim) -> (i < length r)%nat /\ (j < length r)%nat /\ i <> j) as CI.
  { intros i j I. rewrite L. destruct D as [-> | ->]; unfold tet_pairs in I; cbn in I; intuition; match goal with H : (_, _) = (_, _) |- _ => inversion H; subst; lia end. }
  rewrite min_edge_alt. destruct (min_list_spec (map (fun ij => sub_len (nth (nth (fst ij) r 0%nat) p []) (nth (nth (snd ij) r 0%nat) p [])) (tet_pairs dim))) as [I M].
  { unfold tet_pairs. discriminate. }
  split.
  - apply in_map_iff in I. destruct I as [[i j] [E I]]. cbn [fst snd] in E. destruct (CI i j I) as [Hi [Hj N]].
    exists (nth i r 0%nat), (nth j r 0%nat). split; [exists i, j; tauto|]. rewrite <- E. apply sub_len_edist. rewrite !LP by assumption. reflexivity.
  - intros a b [i [j [Hi [Hj [N [<- <-]]]]]]. destruct (CP i j Hi Hj N) as [K|K].
    + rewrite <- sub_len_edist by (rewrite !LP by assumption; reflexivity). apply M. apply in_map_iff. exists (i, j). split; [reflexivity|exact K].
    + rewrite edist_sym, <- sub_len_edist by (rewrite !LP by assumption; reflexivity). apply M. apply in_map_iff. exists (j, i). split; [reflexivity|exact K].
Qed.
Lemma ratios2 ball p t : calc_re_ratios ball 2 p t =
  match t with
  | [] => Ok []
  | [_] => Ok []
  | [e; f] => Ok (map (fun r => sqrt (ball (pts_of p e)) / min_edge p 2 r) t)
  | [e; f; g] => Ok (map (fun r => sqrt (ball (pts_of p e)) / min_edge p 2 r) t)
  | _ => Err ValueError
  end.
Proof.
  unfold calc_re_ratios. cbn [Nat.eqb]. destruct t as [|e [|f [|g [|h t]]]]; try reflexivity.
  remember (e :: f :: g :: h :: t) as l. assert (4 <= length l)%nat as L by (subst; cbn; lia). clear Heql.
  unfold np_div. rewrite !map_length, firstn_length. pose proof (Nat.div_mod (3 * length l) 6 ltac:(lia)) as DM. pose proof (Nat.mod_upper_bound (3 * length l) 6 ltac:(lia)) as MB.
  set (k := (3 * length l / 6)%nat) in *. assert (2 <= k < length l)%nat as K by lia. rewrite Nat.min_l by lia.
  destruct (Nat.eqb_spec k (length l)); [lia|].
  destruct l as [|a [|b [|c l]]]; try (cbn in L; lia). destruct k as [|[|k]]; try lia. reflexivity.
Qed.
