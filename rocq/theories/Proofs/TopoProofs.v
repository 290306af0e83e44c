(** Degrees on the boundary, manifold test, boundary vertices and entities, deletion. *)
From Coq Require Import List ZArith Reals Bool Arith Lia Permutation Sorted.
From Verif Require Import Model.Base Model.Simplex Model.Mesh Spec.MeshTopo Proofs.ListAux Proofs.MeshAux Proofs.VtoeProofs Proofs.EdgeProofs Proofs.FixMeshProofs.
Import ListNotations.

(** sum of the multiplicities = length *)
Lemma sum_indicator {A} (dec : forall x y : A, {x = y} + {x <> y}) U y (c : A -> nat) :
  list_sum (map (fun x => (if dec y x then S (c x) else c x)) U) = list_sum (map c U) + count_occ dec U y.
Proof.
  induction U as [|x U IH]; [reflexivity|]. cbn [map list_sum fold_right count_occ]. unfold list_sum in *. rewrite IH.
  destruct (dec y x) as [->|N].
  - destruct (dec x x); [lia|congruence].
  - destruct (dec x y); [congruence|lia].
Qed.
Lemma sum_counts {A} (dec : forall x y : A, {x = y} + {x <> y}) U L : NoDup U -> (forall x, In x L -> In x U) ->
  list_sum (map (count_occ dec L) U) = length L.
Proof.
  intros HU. induction L as [|y L IH]; intros HI.
  - cbn. induction U as [|x U IHU]; [reflexivity|]. cbn. inversion HU; subst. apply IHU; [assumption|]. intros x0 []. 
  - cbn [length]. rewrite (map_ext _ (fun x => if dec y x then S (count_occ dec L x) else count_occ dec L x)).
    2:{ intros x. cbn [count_occ]. reflexivity. }
    rewrite sum_indicator, IH by (intros; apply HI; right; assumption).
    rewrite (count_nodup dec) by exact HU. destruct (in_dec dec y U) as [_|N]; [lia|]. exfalso. apply N, HI. left; reflexivity.
Qed.
Lemma parity_ones {A} (c : A -> nat) U : (forall x, In x U -> c x = 1 \/ c x = 2) ->
  exists k, list_sum (map c U) = length (filter (fun x => c x =? 1) U) + 2 * k.
Proof.
  induction U as [|x U IH]; intros H; [exists 0; reflexivity|]. destruct IH as [k Hk]; [intros; apply H; right; assumption|].
  cbn [map list_sum fold_right filter]. unfold list_sum in Hk. rewrite Hk. destruct (H x (or_introl eq_refl)) as [E|E]; rewrite E; cbn [Nat.eqb].
  - exists k. cbn [length]. lia.
  - exists (S k). lia.
Qed.
Lemma filter_filter {A} (f g : A -> bool) l : filter f (filter g l) = filter (fun x => g x && f x) l.
Proof. induction l as [|x l IH]; [reflexivity|]. cbn. destruct (g x) eqn:E; cbn; [destruct (f x)|]; rewrite IH; reflexivity. Qed.
Lemma filter_map_length {A B} (g : A -> B) (f : B -> bool) l : length (filter f (map g l)) = length (filter (fun x => f (g x)) l).
Proof. induction l as [|x l IH]; [reflexivity|]. cbn. destruct (f (g x)); cbn; rewrite IH; reflexivity. Qed.
Lemma count_filter {A} (dec : forall x y : A, {x = y} + {x <> y}) (f : A -> bool) l x : f x = true -> count_occ dec (filter f l) x = count_occ dec l x.
Proof.
  intros H. induction l as [|y l IH]; [reflexivity|]. cbn. destruct (f y) eqn:E; cbn; destruct (dec y x) as [->|]; rewrite ?IH; congruence.
Qed.
Lemma filter_ext_in' {A} (f g : A -> bool) l : (forall x, In x l -> f x = g x) -> filter f l = filter g l.
Proof. induction l as [|x l IH]; intros H; [reflexivity|]. cbn. rewrite (H x (or_introl eq_refl)), IH; [reflexivity|]. intros; apply H; right; assumption. Qed.

(** number of edge occurrences of a triangle at v *)
Lemma tri_edges_at r v : simplex 3 r -> exists k, length (filter (fun e => has e v) (tri_edges r)) = 2 * k.
Proof.
  intros [HL HN]. destruct (row3 r HL) as [a [b [c ->]]].
  assert (a <> b /\ a <> c /\ b <> c) as [Nab [Nac Nbc]].
  { inversion HN as [|? ? N1 M1]; subst. inversion M1 as [|? ? N2 M2]; subst. cbn in *. intuition. }
  change (tri_edges [a; b; c]) with [sort_nat [a;b]; sort_nat [a;c]; sort_nat [b;c]].
  assert (forall x y, has (sort_nat [x; y]) v = (x =? v) || (y =? v)) as HB.
  { intros x y. apply eq_true_iff_eq. rewrite has_in, sort_nat_in, orb_true_iff, !Nat.eqb_eq. cbn. tauto. }
  cbn [filter]. rewrite !HB. destruct (a =? v) eqn:E1; destruct (b =? v) eqn:E2; destruct (c =? v) eqn:E3;
    rewrite ?Nat.eqb_eq in *; try congruence; cbn [orb length]; ((exists 1; reflexivity) || (exists 0; reflexivity)).
Qed.
Lemma edges_at_even t v : (forall r, In r t -> simplex 3 r) -> exists k, length (filter (fun e => has e v) (flat_map tri_edges t)) = 2 * k.
Proof.
  induction t as [|r t IH]; intros H; [exists 0; reflexivity|]. destruct IH as [k Hk]; [intros; apply H; right; assumption|].
  destruct (tri_edges_at r v (H r (or_introl eq_refl))) as [j Hj]. cbn [flat_map]. rewrite filter_app, app_length, Hk, Hj. exists (j + k). lia.
Qed.
Lemma bedges_unfold uniq t : get_boundary_edges uniq 2 t = rows_with_count uniq 1 (flat_map tri_edges t).
Proof.
  unfold get_boundary_edges, get_edges. rewrite map_flat_map. reflexivity.
Qed.
Definition edge_bound (t : list row) : Prop := forall f, increasing f -> length f = 2 -> entities_on f t <= 2.
Lemma count_tri t f : (forall r, In r t -> simplex 3 r) -> increasing f -> length f = 2 -> count_occ row_dec (flat_map tri_edges t) f = entities_on f t.
Proof.
  intros HT A B. apply count_flat_map.
  - intros r' Hr'. apply tri_edges_spec, HT, Hr'.
  - intros r' Hr'. rewrite (proj2 (tri_edges_spec r' (HT r' Hr'))), forallb_has_incl. tauto.
Qed.
Lemma boundary_even uniq t v : uniq_ok uniq -> (forall r, In r t -> simplex 3 r) -> edge_bound t ->
  exists k, degree v (get_boundary_edges uniq 2 t) = 2 * k.
Proof.
  intros HU HT HB. rewrite bedges_unfold. unfold degree, rows_with_count. rewrite filter_filter.
  set (L := flat_map tri_edges t). set (U := uniq L).
  assert (NoDup (filter (fun e => has e v) U)) as ND by (apply NoDup_filter, HU).
  assert (list_sum (map (count_occ row_dec (filter (fun e => has e v) L)) (filter (fun e => has e v) U)) = length (filter (fun e => has e v) L)) as SC.
  { apply sum_counts; [exact ND|]. intros x Hx. apply filter_In in Hx. apply filter_In. split; [apply HU|]; tauto. }
  destruct (parity_ones (count_occ row_dec (filter (fun e => has e v) L)) (filter (fun e => has e v) U)) as [k Hk].
  { intros x Hx. apply filter_In in Hx. destruct Hx as [Ix Hx]. rewrite count_filter by exact Hx. apply (proj1 (proj2 (HU L) x)) in Ix.
    assert (0 < count_occ row_dec L x) as P by (apply (count_occ_In row_dec), Ix).
    apply in_flat_map in Ix. destruct Ix as [r [Hr Ir]]. apply (proj2 (tri_edges_spec r (HT r Hr))) in Ir. destruct Ir as [A [B _]].
    unfold L in *. rewrite count_tri in * by assumption. specialize (HB x A B). lia. }
  destruct (edges_at_even t v HT) as [j Hj]. fold L in Hj. rewrite SC, Hj, filter_filter in Hk.
  exists (j - k). rewrite (filter_ext_in' (fun x => (count_occ row_dec L x =? 1) && has x v)
    (fun x => has x v && (count_occ row_dec (filter (fun e => has e v) L) x =? 1))).
  - lia.
  - intros x _. destruct (has x v) eqn:E; [|rewrite andb_false_r; reflexivity]. rewrite count_filter by exact E. rewrite andb_true_r. reflexivity.
Qed.

(** degree sum *)
Lemma degree_sum (es : list row) (U : list nat) : NoDup U -> (forall e v, In e es -> In v e -> In v U) -> (forall e, In e es -> simplex 2 e) ->
  list_sum (map (fun v => degree v es) U) = 2 * length es.
Proof.
  intros HU. induction es as [|e es IH]; intros HI HS.
  - cbn. unfold degree. cbn. clear. induction U; [reflexivity|]. cbn. exact IHU.
  - cbn [length]. replace (2 * S (length es)) with (2 * length es + 2) by lia. rewrite <- IH.
    2:{ intros; eapply HI; eauto. right; assumption. } 2:{ intros; apply HS; right; assumption. }
    destruct (HS e (or_introl eq_refl)) as [HL HN]. destruct (row2 e HL) as [a [b ->]].
    inversion HN as [|? ? N1 M1]; subst. cbn in N1.
    assert (forall v, degree v ([a; b] :: es) = (if Nat.eq_dec a v then 1 else 0) + (if Nat.eq_dec b v then 1 else 0) + degree v es) as D.
    { intros v. unfold degree. cbn [filter]. unfold has at 1. cbn [existsb]. destruct (Nat.eq_dec a v), (Nat.eq_dec b v); subst; rewrite ?Nat.eqb_refl; cbn [orb length]; try lia.
      - rewrite orb_true_r. cbn [length]. lia.
      - destruct (v =? a) eqn:E1; [apply Nat.eqb_eq in E1; congruence|]. destruct (v =? b) eqn:E2; [apply Nat.eqb_eq in E2; congruence|]. cbn [orb]. reflexivity. }
    rewrite (map_ext _ _ D).
    assert (count_occ Nat.eq_dec U a = 1) as CA by (rewrite (count_nodup Nat.eq_dec) by exact HU; destruct (in_dec Nat.eq_dec a U) as [_|N]; [reflexivity|exfalso; apply N, (HI [a;b] a); cbn; tauto]).
    assert (count_occ Nat.eq_dec U b = 1) as CB by (rewrite (count_nodup Nat.eq_dec) by exact HU; destruct (in_dec Nat.eq_dec b U) as [_|N]; [reflexivity|exfalso; apply N, (HI [a;b] b); cbn; tauto]).
    assert (forall a, list_sum (map (fun v => if Nat.eq_dec a v then 1 else 0) U) = count_occ Nat.eq_dec U a) as SI.
    { intros x. clear. induction U as [|y U IH]; [reflexivity|]. cbn [map list_sum fold_right count_occ]. unfold list_sum in IH. rewrite IH. destruct (Nat.eq_dec x y), (Nat.eq_dec y x); try congruence; lia. }
    assert (forall f g h : nat -> nat, list_sum (map (fun v => f v + g v + h v) U) = list_sum (map f U) + list_sum (map g U) + list_sum (map h U)) as SD.
    { intros f g h. clear. induction U as [|y U IH]; [reflexivity|]. cbn [map list_sum fold_right]. unfold list_sum in *. rewrite IH. lia. }
    rewrite SD, !SI, CA, CB. lia.
Qed.
Lemma sum_ge_all (c : nat -> nat) U n : (forall v, In v U -> n <= c v) -> (list_sum (map c U) = n * length U <-> forall v, In v U -> c v = n).
Proof.
  induction U as [|x U IH]; intros H.
  - cbn. split; [intros _ v []|lia].
  - assert (n * length U <= list_sum (map c U)) as LB.
    { clear IH. assert (forall v, In v U -> n <= c v) as H' by (intros; apply H; right; assumption). clear H. induction U as [|y U IHU]; [cbn; lia|].
      cbn [map list_sum fold_right length]. unfold list_sum in IHU. specialize (IHU (fun v Hv => H' v (or_intror Hv))). specialize (H' y (or_introl eq_refl)). lia. }
    pose proof (H x (or_introl eq_refl)) as Hx. specialize (IH (fun v Hv => H v (or_intror Hv))).
    cbn [map list_sum fold_right length]. unfold list_sum in *. split.
    + intros E. assert (c x = n /\ fold_right plus 0 (map c U) = n * length U) as [A B] by lia.
      intros v [<- | Hv]; [exact A|]. apply (proj1 IH B v Hv).
    + intros E. rewrite (E x (or_introl eq_refl)), (proj2 IH); [lia|]. intros v Hv. apply E. right; exact Hv.
Qed.
Lemma degree_pos v es e : In e es -> In v e -> 0 < degree v es.
Proof.
  intros He Hv. unfold degree. assert (In e (filter (fun e => has e v) es)) as I by (apply filter_In; split; [exact He|apply has_in, Hv]).
  destruct (filter (fun e0 => has e0 v) es); [destruct I|cbn; lia].
Qed.
Lemma bedge_simplex uniq t e : uniq_ok uniq -> (forall r, In r t -> simplex 3 r) -> In e (get_boundary_edges uniq 2 t) -> simplex 2 e.
Proof.
  intros HU HT He. apply boundary_edges_in in He; try assumption. destruct He as [A [B _]]. split; [exact B|]. apply sorted_lt_nodup, increasing_ss, A.
Qed.
Lemma manifold_spec uniq t : uniq_ok uniq -> (forall r, In r t -> simplex 3 r) -> edge_bound t -> get_boundary_edges uniq 2 t <> [] ->
  exists b, is_manifold uniq 2 2 t = Ok b /\
   (b = true <-> forall v, (exists e, In e (get_boundary_edges uniq 2 t) /\ In v e) -> degree v (get_boundary_edges uniq 2 t) = 2).
Proof.
  intros HU HT HB NE. unfold is_manifold. set (be := get_boundary_edges uniq 2 t) in *.
  exists (2 * length be =? 2 * length (unique_nat (concat be))). split; [destruct be; [congruence|reflexivity]|].
  rewrite Nat.eqb_eq. pose proof (degree_sum be (unique_nat (concat be)) (unique_nat_nodup _)) as DS. rewrite <- DS.
  - rewrite (sum_ge_all (fun v => degree v be)).
    + split; intros H v Hv; apply H; [rewrite unique_nat_in, in_concat|rewrite unique_nat_in, in_concat in Hv]; destruct Hv as [e [A B]]; exists e; tauto.
    + intros v Hv. rewrite unique_nat_in, in_concat in Hv. destruct Hv as [e [A B]]. pose proof (degree_pos v be e A B) as P.
      destruct (boundary_even uniq t v HU HT HB) as [k Hk]. fold be in Hk. lia.
  - intros e v He Hv. rewrite unique_nat_in, in_concat. exists e. tauto.
  - intros e He. apply (bedge_simplex uniq t); assumption.
Qed.

(** ---- boundary vertices and entities ---- *)
Lemma boundary_vertices_spec uniq dim t : dim = 2 \/ dim = 3 -> uniq_ok uniq -> (forall r, In r t -> simplex (S dim) r) ->
  increasing (get_boundary_vertices uniq dim t) /\
  forall v, In v (get_boundary_vertices uniq dim t) <->
    exists f, increasing f /\ length f = dim /\ entities_on f t = 1 /\ In v f.
Proof.
  intros D HU HT. unfold get_boundary_vertices. split; [apply increasing_ss, unique_nat_sorted|]. intros v.
  rewrite unique_nat_in, in_concat. destruct D as [-> | ->]; cbn [Nat.eqb]; split.
  - intros [f [A B]]. apply boundary_edges_in in A; try assumption. exists f. tauto.
  - intros [f [A [B [C F]]]]. exists f. split; [apply boundary_edges_in; tauto|exact F].
  - intros [f [A B]]. apply boundary_facets_in in A; try assumption. exists f. tauto.
  - intros [f [A [B [C F]]]]. exists f. split; [apply boundary_facets_in; tauto|exact F].
Qed.
Lemma on_some f t : entities_on f t = 1 -> exists r, In r t /\ incl f r.
Proof.
  unfold entities_on. destruct (filter (fun r => forallb (has r) f) t) as [|r l] eqn:E; [discriminate|]. intros _.
  assert (In r (filter (fun r => forallb (has r) f) t)) as I by (rewrite E; left; reflexivity). apply filter_In in I. destruct I as [A B].
  exists r. split; [exact A|]. apply forallb_has_incl, B.
Qed.
Lemma boundary_entities_spec uniq dim t ve n : dim = 2 \/ dim = 3 -> uniq_ok uniq -> (forall r, In r t -> simplex (S dim) r) ->
  Permutation ve (ve_pairs t) -> ascending (map fst ve) -> (forall v, v < n <-> exists r, In r t /\ In v r) -> 0 < n ->
  increasing (get_boundary_entities uniq dim t ve) /\
  forall e, In e (get_boundary_entities uniq dim t ve) <-> e < length t /\ exists v, In v (nth e t []) /\ In v (get_boundary_vertices uniq dim t).
Proof.
  intros D HU HT HP HA HI Hn. unfold get_boundary_entities. destruct (vtoe_result ve) as [vtoe ptr] eqn:EV.
  destruct (vtoe_all_used t n ve vtoe ptr HP HA EV HI Hn) as [_ S].
  split; [apply increasing_ss, unique_nat_sorted|]. intros e. rewrite unique_nat_in, in_flat_map.
  assert (forall v, In v (get_boundary_vertices uniq dim t) -> v < n) as BV.
  { intros v Hv. apply (proj2 (boundary_vertices_spec uniq dim t D HU HT)) in Hv. destruct Hv as [f [_ [_ [C F]]]]. apply HI.
    destruct (on_some f t C) as [r [Hr HF]]. exists r. split; [exact Hr|apply HF, F]. }
  split.
  - intros [v [Hv He]]. apply (count_occ_In Nat.eq_dec) in He. rewrite (S v e (BV v Hv)) in He. apply (count_occ_In Nat.eq_dec) in He. split.
    + destruct (Nat.lt_ge_cases e (length t)) as [L|L]; [exact L|]. rewrite (nth_overflow t) in He by exact L. destruct He.
    + exists v. tauto.
  - intros [L [v [Iv Bv]]]. exists v. split; [exact Bv|]. apply (count_occ_In Nat.eq_dec). rewrite (S v e (BV v Bv)). apply (count_occ_In Nat.eq_dec), Iv.
Qed.

(** ---- deletion ---- *)
Lemma kept_rows_in qual mq bele t r : In r (kept_rows qual mq bele t) <->
  exists e, e < length t /\ r = nth e t [] /\ ~ (In e bele /\ poor mq (qual e) = true).
Proof.
  unfold kept_rows. rewrite in_map_iff. split.
  - intros [e [<- H]]. apply filter_In in H. destruct H as [I N]. exists e. apply in_seq in I. split; [lia|]. split; [reflexivity|].
    intros [A B]. apply negb_true_iff in N. assert (existsb (Nat.eqb e) (filter (fun e0 => poor mq (qual e0)) bele) = true); [|congruence].
    apply existsb_exists. exists e. split; [apply filter_In; tauto|apply Nat.eqb_refl].
  - intros [e [L [-> N]]]. exists e. split; [reflexivity|]. apply filter_In. split; [apply in_seq; lia|]. apply negb_true_iff.
    destruct (existsb _ _) eqn:E; [|reflexivity]. exfalso. apply N. apply existsb_exists in E. destruct E as [x [Ix Ex]]. apply Nat.eqb_eq in Ex. subst x.
    apply filter_In in Ix. exact Ix.
Qed.
