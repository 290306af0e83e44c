(** C115: the numbering of the mesh does not matter. *)
From Coq Require Import Reals List Arith Bool Lia Lra Permutation Sorted.
From Verif Require Import Model.Base Model.SDF Model.Simplex Model.Mesh Spec.Geom Spec.MeshTopo Spec.Renumber
  Proofs.ListAux Proofs.MeshAux Proofs.EdgeProofs Proofs.TopoProofs Proofs.SimplexProofs Proofs.RenumberProofs Props.P06_mesh Props.P07_simplex.
Import ListNotations.
Local Open Scope nat_scope.
Lemma Permutation_refl' {A} (l m : list A) : l = m -> Permutation l m.
Proof. intros ->. reflexivity. Qed.

Lemma filter_map'' {A B} (h : A -> B) f g l : (forall x, g (h x) = f x) -> filter g (map h l) = map h (filter f l).
Proof. intros H. induction l as [|x l IH]; cbn; [reflexivity|]. rewrite H, IH. destruct (f x); reflexivity. Qed.
Section Boundary.
Variables (uniq uniq' : list (list nat) -> list (list nat)).
Hypotheses (U : uniq_ok uniq) (U' : uniq_ok uniq').
Variables (pi : nat -> nat) (t t' : list (list nat)).
Hypotheses (REN : renumbered pi t t') (INJ : distinct_numbers pi t).
Lemma edges_ren : (forall r, In r t -> simplex 3 r) -> Permutation (map (fun e => sort_nat (map pi e)) (get_boundary_edges uniq 2 t)) (get_boundary_edges uniq' 2 t').
Proof. intros S. apply (faces_renumbered 2 pi t t'); [exact REN|exact INJ|apply C38_boundary_edges; assumption|apply C38_boundary_edges; [exact U'|]; eapply renumbered_simplex; eassumption]. Qed.
Lemma facets_ren : (forall r, In r t -> simplex 4 r) -> Permutation (map (fun e => sort_nat (map pi e)) (get_boundary_facets uniq t)) (get_boundary_facets uniq' t').
Proof. intros S. apply (faces_renumbered 3 pi t t'); [exact REN|exact INJ|apply C40_boundary_facets; assumption|apply C40_boundary_facets; [exact U'|]; eapply renumbered_simplex; eassumption]. Qed.
Lemma vertices_ren dim : dim = 2 \/ dim = 3 -> (forall r, In r t -> simplex (S dim) r) ->
  Permutation (map pi (get_boundary_vertices uniq dim t)) (get_boundary_vertices uniq' dim t').
Proof.
  intros D S. assert (S' : forall r, In r t' -> simplex (Datatypes.S dim) r) by (eapply renumbered_simplex; eassumption).
  destruct (C40_boundary_vertices uniq dim t D U S) as (I1 & E1). destruct (C40_boundary_vertices uniq' dim t' D U' S') as (I2 & E2).
  assert (FR : exists l l', bound_faces dim t l /\ bound_faces dim t' l').
  { destruct D as [-> | ->]; [exists (get_boundary_edges uniq 2 t), (get_boundary_edges uniq' 2 t')|exists (get_boundary_facets uniq t), (get_boundary_facets uniq' t')]; split;
      first [apply C38_boundary_edges; assumption|apply C40_boundary_facets; assumption]. }
  destruct FR as (l & l' & B & B'). pose proof (faces_renumbered dim pi t t' l l' REN INJ B B') as P. destruct B as (_ & B), B' as (_ & B').
  assert (US : forall v, In v (get_boundary_vertices uniq dim t) -> used t v) by (intros v V; apply E1 in V as (f & _ & _ & Ef & If); eapply face_used; eassumption).
  apply NoDup_Permutation; [apply (image_nodup pi t); [exact INJ|exact US|apply increasing_nodup, I1]|apply increasing_nodup, I2|].
  intros w. rewrite E2, in_map_iff. split.
  - intros (v & <- & V). apply E1 in V as (f & F1 & F2 & F3 & F4). assert (L : In f l) by (apply B; auto). exists (sort_nat (map pi f)).
    assert (L' : In (sort_nat (map pi f)) l') by (apply (Permutation_in _ P); apply in_map_iff; exists f; auto). apply B' in L' as (A1 & A2 & A3). split; [exact A1|]. split; [exact A2|]. split; [exact A3|].
    apply sort_nat_in, in_map, F4.
  - intros (f' & A1 & A2 & A3 & A4). assert (L' : In f' l') by (apply B'; auto). apply (Permutation_in _ (Permutation_sym P)), in_map_iff in L' as (f & <- & L). apply sort_nat_in, in_map_iff in A4 as (v & <- & V).
    exists v. split; [reflexivity|]. apply E1. exists f. apply B in L as (F1 & F2 & F3). auto.
Qed.
End Boundary.

(** Boundary edges, facets and vertices of the renumbered mesh are the renumbered ones (rows are returned increasing). *)
Theorem C115_boundary : forall uniq uniq' pi t t', uniq_ok uniq -> uniq_ok uniq' -> renumbered pi t t' -> distinct_numbers pi t ->
  ((forall r, In r t -> simplex 3 r) ->
    Permutation (map (fun e => sort_nat (map pi e)) (get_boundary_edges uniq 2 t)) (get_boundary_edges uniq' 2 t') /\
    Permutation (map pi (get_boundary_vertices uniq 2 t)) (get_boundary_vertices uniq' 2 t')) /\
  ((forall r, In r t -> simplex 4 r) ->
    Permutation (map (fun e => sort_nat (map pi e)) (get_boundary_facets uniq t)) (get_boundary_facets uniq' t') /\
    Permutation (map pi (get_boundary_vertices uniq 3 t)) (get_boundary_vertices uniq' 3 t')).
Proof.
  intros uniq uniq' pi t t' U U' R I. split; intros S; (split; [|apply vertices_ren; auto]); [apply edges_ren|apply facets_ren]; assumption.
Qed.
Print Assumptions C115_boundary.
(** is_manifold gives the same verdict (or the same error) *)
Theorem C115_manifold : forall uniq uniq' pi t t', uniq_ok uniq -> uniq_ok uniq' -> renumbered pi t t' -> distinct_numbers pi t ->
  (forall r, In r t -> simplex 3 r) -> is_manifold uniq' 2 2 t' = is_manifold uniq 2 2 t.
Proof.
  intros uniq uniq' pi t t' U U' R I S. pose proof (Permutation_length (edges_ren _ _ U U' _ _ _ R I S)) as E. pose proof (Permutation_length (vertices_ren _ _ U U' _ _ _ R I 2 (or_introl eq_refl) S)) as V.
  rewrite map_length in E, V. unfold is_manifold. unfold get_boundary_vertices in V. cbn [Nat.eqb] in V. rewrite <- E, <- V.
  destruct (get_boundary_edges uniq' 2 t'), (get_boundary_edges uniq 2 t); try discriminate; reflexivity.
Qed.
Print Assumptions C115_manifold.

(** ---- edges ---- *)
Definition new_edge (pi : nat -> nat) (e : nat * nat) : nat * nat := (Nat.min (pi (fst e)) (pi (snd e)), Nat.max (pi (fst e)) (pi (snd e))).
Lemma edge_simplex n r a b : simplex n r -> (edge_of r a b <-> In a r /\ In b r /\ a <> b).
Proof.
  intros (_ & N). split.
  - intros (i & j & Li & Lj & NE & <- & <-). split; [apply nth_In, Li|]. split; [apply nth_In, Lj|]. intros E. apply NE, (proj1 (NoDup_nth r 0) N i j Li Lj E).
  - intros (A & B & NE). destruct (In_nth _ _ 0 A) as (i & Li & Ei). destruct (In_nth _ _ 0 B) as (j & Lj & Ej). exists i, j. repeat split; try assumption. intros ->. congruence.
Qed.
Theorem C115_edges : forall dim pi t t', dim = 2 \/ dim = 3 -> renumbered pi t t' -> distinct_numbers pi t -> (forall r, In r t -> simplex (S dim) r) ->
  Permutation (map (new_edge pi) (unique_edges (gen_edges dim t))) (unique_edges (gen_edges dim t')).
Proof.
  intros dim pi t t' D R I S. assert (S' : forall r, In r t' -> simplex (Datatypes.S dim) r) by (eapply renumbered_simplex; eassumption).
  destruct (C37_unique_edges dim t D (fun r H => proj1 (S r H))) as (_ & N1 & E1). destruct (C37_unique_edges dim t' D (fun r H => proj1 (S' r H))) as (_ & N2 & E2).
  assert (K1 : forall a b, In (a, b) (unique_edges (gen_edges dim t)) <-> a < b /\ exists r, In r t /\ In a r /\ In b r).
  { intros a b. rewrite E1. split.
    - intros (L & r & J & Q). apply (edge_simplex _ _ _ _ (S r J)) in Q as (A & B & NE). split; [lia|]. exists r. auto.
    - intros (L & r & J & A & B). split; [lia|]. exists r. split; [exact J|]. apply (edge_simplex _ _ _ _ (S r J)). repeat split; try assumption. lia. }
  assert (K2 : forall a b, In (a, b) (unique_edges (gen_edges dim t')) <-> a < b /\ exists r, In r t' /\ In a r /\ In b r).
  { intros a b. rewrite E2. split.
    - intros (L & r & J & Q). apply (edge_simplex _ _ _ _ (S' r J)) in Q as (A & B & NE). split; [lia|]. exists r. auto.
    - intros (L & r & J & A & B). split; [lia|]. exists r. split; [exact J|]. apply (edge_simplex _ _ _ _ (S' r J)). repeat split; try assumption. lia. }
  clear E1 E2. apply NoDup_Permutation.
  - set (es := unique_edges (gen_edges dim t)) in *. assert (G : forall m, NoDup m -> incl m es -> NoDup (map (new_edge pi) m)); [|apply G; [exact N1|intros x X; exact X]].
    intros m Nm. induction Nm as [|[a b] m NI Nm IH]; intros IL; [constructor|]. cbn [map]. constructor; [|apply IH; intros x X; apply IL; right; exact X].
    intros X. apply in_map_iff in X as ([c e] & E & G). apply NI.
    destruct (proj1 (K1 a b) (IL _ (or_introl eq_refl))) as (L1 & r1 & J1 & A1 & B1). destruct (proj1 (K1 c e) (IL _ (or_intror G))) as (L2 & r2 & J2 & A2 & B2).
    assert (PE : forall x y, In x [a; b; c; e] -> In y [a; b; c; e] -> pi x = pi y -> x = y).
    { assert (UU : forall x, In x [a; b; c; e] -> used t x) by (intros x [<- |[<- |[<- |[<- |[]]]]]; [exists r1|exists r1|exists r2|exists r2]; auto). intros x y X Y. apply I; apply UU; assumption. }
    unfold new_edge in E. cbn [fst snd] in E. injection E as Q1 Q2.
    assert (pi a <> pi b) by (intros Q; apply PE in Q; cbn; auto 6; lia). assert (pi c <> pi e) by (intros Q; apply PE in Q; cbn; auto 6; lia).
    assert ((pi c = pi a /\ pi e = pi b) \/ (pi c = pi b /\ pi e = pi a)) as [[Qa Qb]|[Qa Qb]] by lia; apply PE in Qa, Qb; cbn; auto 6; subst; [exact G|lia].
  - exact N2.
  - intros [a' b']. rewrite K2, in_map_iff. destruct R as (t1 & P & F). split.
    + intros ([a b] & E & J). apply K1 in J as (L & r & J & A & B). unfold new_edge in E. cbn [fst snd] in E. injection E as <- <-.
      assert (pi a <> pi b). { intros Q. apply I in Q; [lia|exists r; auto|exists r; auto]. }
      split; [lia|]. destruct (Forall2_in_l _ _ _ _ F J) as (r' & J' & Q). exists r'. split; [apply (Permutation_in _ P J')|].
      pose proof (Permutation_in _ Q (in_map pi _ _ A)). pose proof (Permutation_in _ Q (in_map pi _ _ B)).
      destruct (Nat.min_dec (pi a) (pi b)) as [-> | ->], (Nat.max_dec (pi a) (pi b)) as [-> | ->]; auto.
    + intros (L & r' & J' & A & B). apply (Permutation_in _ (Permutation_sym P)) in J'. destruct (Forall2_in_r _ _ _ _ F J') as (r & J & Q).
      apply (Permutation_in _ (Permutation_sym Q)), in_map_iff in A as (a & <- & A). apply (Permutation_in _ (Permutation_sym Q)), in_map_iff in B as (b & <- & B).
      assert (a <> b) by (intros ->; lia). destruct (Nat.lt_ge_cases a b).
      * exists (a, b). split; [unfold new_edge; cbn [fst snd]; f_equal; lia|]. apply K1. split; [lia|]. exists r. auto.
      * exists (b, a). split; [unfold new_edge; cbn [fst snd]; f_equal; lia|]. apply K1. split; [lia|]. exists r. auto.
Qed.
Print Assumptions C115_edges.

(** ---- entities at the boundary ---- *)
Lemma rows_of_increasing (g : list nat -> bool) t es : increasing es -> (forall e, In e es <-> e < length t /\ g (nth e t []) = true) ->
  map (fun e => nth e t []) es = filter g t.
Proof.
  intros I E. assert (es = filter (fun e => g (nth e t [])) (seq 0 (length t))) as ->.
  { rewrite <- (increasing_fixed es I). assert (X : increasing (filter (fun e => g (nth e t [])) (seq 0 (length t)))).
    { apply increasing_ss. clear. generalize 0. induction (length t) as [|n IH]; intros a; cbn [seq filter]; [constructor|]. destruct (g (nth a t [])); [|apply IH]. constructor; [apply IH|].
      apply Forall_forall. intros x X. apply filter_In in X as (X & _). apply in_seq in X. lia. }
    rewrite <- (increasing_fixed _ X). apply sort_nat_eq. apply NoDup_Permutation; [apply increasing_nodup, I|apply increasing_nodup, X|]. intros e. rewrite E, filter_In, in_seq. split; intros (A & B); (split; [lia|exact B]). }
  rewrite <- (filter_map'' (fun e => nth e t []) (fun e => g (nth e t [])) g) by reflexivity. f_equal.
  apply (nth_ext _ _ [] []); [rewrite map_length, seq_length; reflexivity|]. rewrite map_length, seq_length. intros e L. rewrite nth_map' with (d' := 0) by (rewrite seq_length; exact L). rewrite seq_nth by exact L. reflexivity.
Qed.
Definition at_boundary (bv : list nat) (r : list nat) : bool := existsb (fun v => has bv v) r.
Lemma boundary_rows uniq dim t ve n : dim = 2 \/ dim = 3 -> uniq_ok uniq -> (forall r, In r t -> simplex (S dim) r) ->
  Permutation ve (ve_pairs t) -> ascending (map fst ve) -> (forall v, v < n <-> used t v) -> 0 < n ->
  map (fun e => nth e t []) (get_boundary_entities uniq dim t ve) = filter (at_boundary (get_boundary_vertices uniq dim t)) t.
Proof.
  intros D U S P A N N0. destruct (C40_boundary_entities uniq dim t ve n D U S P A N N0) as (I & E). apply rows_of_increasing; [exact I|]. intros e. rewrite E. split; intros (L & H); (split; [exact L|]).
  - destruct H as (v & f & V & F & F1 & F2 & F3). unfold at_boundary. apply existsb_exists. exists v. split; [exact V|]. apply has_spec. apply (C40_boundary_vertices uniq dim t D U S). exists f. auto.
  - unfold at_boundary in H. apply existsb_exists in H as (v & V & H). apply has_spec in H. apply (C40_boundary_vertices uniq dim t D U S) in H as (f & F1 & F2 & F3 & F4). exists v, f. auto.
Qed.
Lemma at_boundary_same uniq uniq' dim pi t t' : dim = 2 \/ dim = 3 -> uniq_ok uniq -> uniq_ok uniq' -> renumbered pi t t' -> distinct_numbers pi t -> (forall r, In r t -> simplex (S dim) r) ->
  forall r r', In r t -> Permutation (map pi r) r' -> at_boundary (get_boundary_vertices uniq dim t) r = at_boundary (get_boundary_vertices uniq' dim t') r'.
Proof.
  intros D U U' R I S r r' J Q. pose proof (vertices_ren _ _ U U' _ _ _ R I dim D S) as P. unfold at_boundary. apply eq_true_iff_eq. rewrite !existsb_exists. split.
  - intros (v & V & H). apply has_spec in H. exists (pi v). split; [apply (Permutation_in _ Q), in_map, V|]. apply has_spec. apply (Permutation_in _ P), in_map, H.
  - intros (w & W & H). apply has_spec in H. apply (Permutation_in _ (Permutation_sym Q)), in_map_iff in W as (v & <- & V). exists v. split; [exact V|]. apply has_spec.
    apply (Permutation_in _ (Permutation_sym P)), in_map_iff in H as (x & E & H). rewrite (I v x); [exact H|exists r; auto| |symmetry; exact E].
    apply (C40_boundary_vertices uniq dim t D U S) in H as (f & _ & _ & Ef & If). eapply face_used; eassumption.
Qed.
(** The rows get_boundary_entities points to in the renumbered mesh are the renumbered rows it points to in the original one. *)
Theorem C115_boundary_entities : forall uniq uniq' dim pi t t' ve ve' n n', dim = 2 \/ dim = 3 -> uniq_ok uniq -> uniq_ok uniq' -> renumbered pi t t' -> distinct_numbers pi t ->
  (forall r, In r t -> simplex (S dim) r) ->
  Permutation ve (ve_pairs t) -> ascending (map fst ve) -> (forall v, v < n <-> used t v) -> 0 < n ->
  Permutation ve' (ve_pairs t') -> ascending (map fst ve') -> (forall v, v < n' <-> used t' v) -> 0 < n' ->
  renumbered pi (map (fun e => nth e t []) (get_boundary_entities uniq dim t ve)) (map (fun e => nth e t' []) (get_boundary_entities uniq' dim t' ve')).
Proof.
  intros uniq uniq' dim pi t t' ve ve' n n' D U U' R I S P1 A1 N1 Z1 P2 A2 N2 Z2.
  assert (S' : forall r, In r t' -> simplex (Datatypes.S dim) r) by (eapply renumbered_simplex; eassumption).
  rewrite (boundary_rows _ _ _ _ _ D U S P1 A1 N1 Z1), (boundary_rows _ _ _ _ _ D U' S' P2 A2 N2 Z2).
  destruct R as (t1 & P & F). exists (filter (at_boundary (get_boundary_vertices uniq' dim t')) t1). split; [apply perm_filter, P|]. apply Forall2_filter; [exact F|].
  intros r r' J _ Q. eapply at_boundary_same; try eassumption. exists t1. auto.
Qed.
Print Assumptions C115_boundary_entities.

(** ---- delete_boundary_entities: in 2D the same triangles go ---- *)
Lemma quality_same p p' pi t t' r r' : renumbered pi t t' -> points_follow pi t p p' -> Forall (fun x => length x = 2) p -> (forall r v, In r t -> In v r -> v < length p) ->
  simplex 3 r -> In r t -> Permutation (map pi r) r' -> simp_qual (map (fun v => nth v p' []) r') = simp_qual (map (fun v => nth v p []) r).
Proof.
  intros R F L2 V (L3 & _) J Q. destruct r as [|a [|b [|c [|]]]]; try discriminate.
  assert (LL : forall v, In v [a; b; c] -> length (nth v p []) = 2). { intros v W. rewrite Forall_forall in L2. apply L2, nth_In, (V [a; b; c] v J W). }
  cbn [map]. apply qual_perm; [rewrite !LL; cbn; auto|rewrite !LL; cbn; auto|].
  transitivity (map (fun v => nth v p' []) (map pi [a; b; c])); [apply Permutation_map, Permutation_sym, Q|].
  cbn [map]. rewrite !F; [reflexivity|exists [a; b; c]; cbn; auto..].
Qed.
Theorem C115_delete_2d : forall uniqK uniqR uniqK' uniqR' k min_qual pi p t ve n q s p' t' ve' n' q' s',
  uniq_ok uniqK -> uniq_ok uniqR -> uniq_ok uniqK' -> uniq_ok uniqR' -> renumbered pi t t' -> distinct_numbers pi t -> points_follow pi t p p' ->
  Forall (fun x => length x = 2) p -> (forall r v, In r t -> In v r -> v < length p) -> (forall r, In r t -> simplex 3 r) ->
  Permutation ve (ve_pairs t) -> ascending (map fst ve) -> (forall v, v < n <-> used t v) -> 0 < n ->
  Permutation ve' (ve_pairs t') -> ascending (map fst ve') -> (forall v, v < n' <-> used t' v) -> 0 < n' ->
  delete_boundary_entities uniqK uniqR k 2 min_qual p t ve = Ok (q, s) -> delete_boundary_entities uniqK' uniqR' k 2 min_qual p' t' ve' = Ok (q', s') ->
  let keys x r := map (fun v => k (nth v x [])) r in
  (forall r, In r s -> exists r', In r' s' /\ Permutation (keys q r) (keys q' r')) /\ (forall r', In r' s' -> exists r, In r s /\ Permutation (keys q r) (keys q' r')).
Proof.
  intros uniqK uniqR uniqK' uniqR' k mq pi p t ve n q s p' t' ve' n' q' s' UK UR UK' UR' R I F L2 V S P1 A1 N1 Z1 P2 A2 N2 Z2 H H' keys.
  assert (S' : forall r, In r t' -> simplex 3 r) by (eapply renumbered_simplex; eassumption).
  destruct (C42_deletes_exactly_poor_boundary _ _ k 2 mq p t ve n q s UK UR (or_introl eq_refl) S P1 A1 N1 Z1 H) as (K1 & B1 & _).
  destruct (C42_deletes_exactly_poor_boundary _ _ k 2 mq p' t' ve' n' q' s' UK' UR' (or_introl eq_refl) S' P2 A2 N2 Z2 H') as (K2 & B2 & _).
  fold keys in K1, B1, K2, B2. clear H H'.
  set (doomed := fun (p : list pt) (t : list (list nat)) e => (exists v f, In v (nth e t []) /\ In v f /\ increasing f /\ length f = 2 /\ entities_on f t = 1) /\
    (exists q, simp_qual (map (fun v => nth v p []) (nth e t [])) = Some q /\ (q < mq)%R)).
  change (forall e, e < length t -> ~ doomed p t e -> exists r', In r' s /\ Permutation (keys q r') (keys p (nth e t []))) in K1.
  change (forall r', In r' s -> exists e, e < length t /\ ~ doomed p t e /\ Permutation (keys q r') (keys p (nth e t []))) in B1.
  change (forall e, e < length t' -> ~ doomed p' t' e -> exists r', In r' s' /\ Permutation (keys q' r') (keys p' (nth e t' []))) in K2.
  change (forall r', In r' s' -> exists e, e < length t' /\ ~ doomed p' t' e /\ Permutation (keys q' r') (keys p' (nth e t' []))) in B2.
  assert (DM : forall e e', e < length t -> e' < length t' -> Permutation (map pi (nth e t [])) (nth e' t' []) ->
     (doomed p t e <-> doomed p' t' e') /\ Permutation (keys p (nth e t [])) (keys p' (nth e' t' []))).
  { intros e e' L L' Q. assert (J : In (nth e t []) t) by (apply nth_In, L). split.
    - unfold doomed. rewrite (quality_same p p' pi t t' _ _ R F L2 V (S _ J) J Q).
      pose proof (at_boundary_same uniqR uniqR' 2 pi t t' (or_introl eq_refl) UR UR' R I S _ _ J Q) as AB. unfold at_boundary in AB.
      assert (X : forall (u : list (list nat) -> list (list nat)) t e, uniq_ok u -> (forall r, In r t -> simplex 3 r) ->
        ((exists v f, In v (nth e t []) /\ In v f /\ increasing f /\ length f = 2 /\ entities_on f t = 1) <-> existsb (fun v => has (get_boundary_vertices u 2 t) v) (nth e t []) = true)).
      { clear. intros u t e U S. rewrite existsb_exists. split.
        - intros (v & f & A & B & C). exists v. split; [exact A|]. apply has_spec. apply (C40_boundary_vertices u 2 t (or_introl eq_refl) U S). exists f. tauto.
        - intros (v & A & B). apply has_spec in B. apply (C40_boundary_vertices u 2 t (or_introl eq_refl) U S) in B as (f & B). exists v, f. tauto. }
      rewrite (X uniqR t e UR S), (X uniqR' t' e' UR' S'), AB. reflexivity.
    - unfold keys. rewrite <- (map_map (fun v => nth v p []) k), <- (map_map (fun v => nth v p' []) k). apply Permutation_map.
      transitivity (map (fun v => nth v p' []) (map pi (nth e t []))); [|apply Permutation_map, Q]. rewrite map_map. apply Permutation_refl'. apply map_ext_in. intros v W. symmetry. apply F. exists (nth e t []). auto. }
  destruct R as (t1 & P & FF). split.
  - intros r J. destruct (B1 r J) as (e & L & ND & Q). assert (J1 : In (nth e t []) t) by (apply nth_In, L). destruct (Forall2_in_l _ _ _ _ FF J1) as (r1 & J2 & Q1).
    apply (Permutation_in _ P) in J2. destruct (In_nth _ _ [] J2) as (e' & L' & E'). rewrite <- E' in Q1. destruct (DM e e' L L' Q1) as (DD & KK).
    destruct (K2 e' L') as (r' & J' & Q'); [rewrite <- DD; exact ND|]. exists r'. split; [exact J'|]. rewrite Q, KK. symmetry. exact Q'.
  - intros r' J. destruct (B2 r' J) as (e' & L' & ND & Q). assert (J1 : In (nth e' t' []) t') by (apply nth_In, L'). apply (Permutation_in _ (Permutation_sym P)) in J1.
    destruct (Forall2_in_r _ _ _ _ FF J1) as (r1 & J2 & Q1). destruct (In_nth _ _ [] J2) as (e & L & E). rewrite <- E in Q1. destruct (DM e e' L L' Q1) as (DD & KK).
    destruct (K1 e L) as (r & Jr & Qr); [rewrite DD; exact ND|]. exists r. split; [exact Jr|]. rewrite Qr, KK. symmetry. exact Q.
Qed.
Print Assumptions C115_delete_2d.

(** ---- fix_mesh with delete_unused: the same vertices and cells remain ---- *)
Theorem C115_fix_mesh : forall uniqK uniqR uniqK' uniqR' k pi p t p' t' ori q s jx q' s' jx',
  uniq_ok uniqK -> uniq_ok uniqR -> uniq_ok uniqK' -> uniq_ok uniqR' -> renumbered pi t t' -> points_follow pi t p p' ->
  fix_mesh uniqK uniqR k p t true ori = Ok (q, s, jx) -> fix_mesh uniqK' uniqR' k p' t' true ori = Ok (q', s', jx') ->
  let keys x r := map (fun v => k (nth v x [])) r in
  (forall r, In r s -> exists r', In r' s' /\ Permutation (keys q r) (keys q' r')) /\ (forall r', In r' s' -> exists r, In r s /\ Permutation (keys q r) (keys q' r')) /\
  Permutation (map k q) (map k q').
Proof.
  intros uniqK uniqR uniqK' uniqR' k pi p t p' t' ori q s jx q' s' jx' UK UR UK' UR' RN F H H' keys.
  destruct (C33_fix_mesh_clean _ _ k p t true ori q s jx UK UR H) as (V1 & _ & N1 & K1 & B1 & _ & U1).
  destruct (C33_fix_mesh_clean _ _ k p' t' true ori q' s' jx' UK' UR' H') as (V2 & _ & N2 & K2 & B2 & _ & U2).
  specialize (U1 eq_refl). specialize (U2 eq_refl).
  assert (KK : forall r r', In r t -> Permutation (map pi r) r' -> Permutation (keys p r) (keys p' r')).
  { intros r r' J Q. unfold keys. rewrite <- (map_map (fun v => nth v p []) k), <- (map_map (fun v => nth v p' []) k). apply Permutation_map.
    transitivity (map (fun v => nth v p' []) (map pi r)); [|apply Permutation_map, Q]. rewrite map_map. apply Permutation_refl'. apply map_ext_in. intros v W. symmetry. apply F. exists r. auto. }
  destruct RN as (t1 & P & FF).
  assert (A : forall r, In r s -> exists r', In r' s' /\ Permutation (keys q r) (keys q' r')).
  { intros r J. destruct (B1 r J) as (r0 & J0 & Q0). destruct (Forall2_in_l _ _ _ _ FF J0) as (r1 & J1 & Q1). apply (Permutation_in _ P) in J1. destruct (K2 r1 J1) as (r2 & J2 & Q2).
    exists r2. split; [exact J2|]. exact (perm_trans Q0 (perm_trans (KK r0 r1 J0 Q1) (Permutation_sym Q2))). }
  assert (B : forall r', In r' s' -> exists r, In r s /\ Permutation (keys q r) (keys q' r')).
  { intros r' J. destruct (B2 r' J) as (r1 & J1 & Q1). apply (Permutation_in _ (Permutation_sym P)) in J1. destruct (Forall2_in_r _ _ _ _ FF J1) as (r0 & J0 & Q0). destruct (K1 r0 J0) as (r & Jr & Qr).
    exists r. split; [exact Jr|]. exact (perm_trans Qr (perm_trans (KK r0 r1 J0 Q0) (Permutation_sym Q1))). }
  split; [exact A|]. split; [exact B|]. apply NoDup_Permutation; [exact N1|exact N2|]. intros z. rewrite !in_map_iff. split.
  - intros (x & <- & X). destruct (In_nth _ _ [] X) as (v & L & <-). destruct (U1 v L) as (r & J & W). destruct (A r J) as (r' & J' & Q).
    assert (Z : In (k (nth v q [])) (keys q' r')) by (apply (Permutation_in _ Q); unfold keys; apply in_map_iff; exists v; auto). unfold keys in Z. apply in_map_iff in Z as (w & E & W').
    exists (nth w q' []). split; [exact E|]. apply nth_In, (V2 r' w J' W').
  - intros (x & <- & X). destruct (In_nth _ _ [] X) as (v & L & <-). destruct (U2 v L) as (r' & J' & W). destruct (B r' J') as (r & J & Q).
    assert (Z : In (k (nth v q' [])) (keys q r)) by (apply (Permutation_in _ (Permutation_sym Q)); unfold keys; apply in_map_iff; exists v; auto). unfold keys in Z. apply in_map_iff in Z as (w & E & W').
    exists (nth w q []). split; [exact E|]. apply nth_In, (V1 r w J W').
Qed.
Print Assumptions C115_fix_mesh.

(** ---- in 3D the order of the corners does matter: the tetrahedron with corners e1, e2, e3 and 0, quality asked 0.9 ---- *)
Definition corner_tet : list (list R) := [[1;0;0];[0;1;0];[0;0;1];[0;0;0]]%R.
Lemma face_good : simp_qual (map (fun v => nth v corner_tet []) [0;1;2;3]) = Some 1%R.
Proof.
  change (simp_qual [[1;0;0];[0;1;0];[0;0;1];[0;0;0]]%R = Some 1%R). rewrite (proj2 (C76_quality_ignores_last_corner _ _ _ _ [0;0;0]%R)). rewrite (simp_qual_sides [1;0;0]%R [0;1;0]%R [0;0;1]%R eq_refl eq_refl).
  assert (edist [0;1;0] [1;0;0] = sqrt 2)%R as E1 by (unfold edist; cbn; f_equal; lra).
  assert (edist [0;0;1] [1;0;0] = sqrt 2)%R as E2 by (unfold edist; cbn; f_equal; lra).
  assert (edist [0;0;1] [0;1;0] = sqrt 2)%R as E3 by (unfold edist; cbn; f_equal; lra).
  rewrite E1, E2, E3. assert (0 < sqrt 2)%R as P by (apply sqrt_lt_R0; lra). unfold qual_sides. rewrite (proj2 (Reqb_false (sqrt 2) 0)) by lra. cbn [orb].
  f_equal. unfold mprod. field. lra.
Qed.
Lemma face_poor : exists x, simp_qual (map (fun v => nth v corner_tet []) [3;0;1;2]) = Some x /\ (x < 9 / 10)%R.
Proof.
  change (map (fun v => nth v corner_tet []) [3;0;1;2]) with [[0;0;0];[1;0;0];[0;1;0];[0;0;1]]%R. rewrite (proj2 (C76_quality_ignores_last_corner _ _ _ _ [0;0;0]%R)).
  rewrite (simp_qual_sides [0;0;0]%R [1;0;0]%R [0;1;0]%R eq_refl eq_refl).
  assert (edist [1;0;0] [0;0;0] = 1)%R as E1 by (unfold edist; cbn; match goal with |- sqrt ?x = _ => replace x with 1%R by lra end; apply sqrt_1).
  assert (edist [0;1;0] [0;0;0] = 1)%R as E2 by (unfold edist; cbn; match goal with |- sqrt ?x = _ => replace x with 1%R by lra end; apply sqrt_1).
  assert (edist [0;1;0] [1;0;0] = sqrt 2)%R as E3 by (unfold edist; cbn; f_equal; lra).
  rewrite E1, E2, E3. assert (0 < sqrt 2)%R as P by (apply sqrt_lt_R0; lra). unfold qual_sides. rewrite (proj2 (Reqb_false (sqrt 2) 0)), (proj2 (Reqb_false 1 0)) by lra. cbn [orb].
  eexists. split; [reflexivity|]. unfold mprod. pose proof (sqrt_sqrt 2 ltac:(lra)) as Q. assert (13 / 10 < sqrt 2 < 1415 / 1000)%R as (B1 & B2) by (split; nra).
  match goal with |- (?x < _)%R => replace x with ((2 - sqrt 2) * sqrt 2)%R; [nra|] end. field. lra.
Qed.
Lemma one_row_used a b c d : Permutation [a;b;c;d] [0;1;2;3] -> forall v, v < 4 <-> exists r, In r [[a;b;c;d]] /\ In v r.
Proof.
  intros Q v. split.
  - intros L. exists [a;b;c;d]. split; [left; reflexivity|]. apply (Permutation_in _ (Permutation_sym Q)). assert (v = 0 \/ v = 1 \/ v = 2 \/ v = 3) as [-> | [-> | [-> | ->]]] by lia; cbn; auto.
  - intros (r & [<- | []] & W). apply (Permutation_in _ Q) in W. cbn in W. lia.
Qed.
Definition four_pairs : list (nat * nat) := [(0,0);(1,0);(2,0);(3,0)].
Theorem C115_delete_3d_refuted : exists p t t' ve,
  renumbered (fun v => v) t t' /\ (forall r, In r t -> simplex 4 r) /\ (forall v, v < length p <-> used t v) /\ Permutation ve (ve_pairs t) /\ Permutation ve (ve_pairs t') /\ ascending (map fst ve) /\
  forall uniqK uniqR k, uniq_ok uniqK -> uniq_ok uniqR -> exists q s q' s',
    delete_boundary_entities uniqK uniqR k 3 (9 / 10) p t ve = Ok (q, s) /\ delete_boundary_entities uniqK uniqR k 3 (9 / 10) p t' ve = Ok (q', s') /\
    s <> [] /\ s' = [].
Proof.
  assert (Q2 : Permutation [3;0;1;2] [0;1;2;3]) by (change [0;1;2;3] with ([0;1;2] ++ [3]); apply (Permutation_cons_append [0;1;2] 3)).
  assert (A : ascending (map fst four_pairs)) by (cbn; repeat constructor; lia).
  assert (P1 : Permutation four_pairs (ve_pairs [[0;1;2;3]])) by reflexivity.
  assert (P2 : Permutation four_pairs (ve_pairs [[3;0;1;2]])) by (apply Permutation_sym; change four_pairs with ([(0,0);(1,0);(2,0)] ++ [(3,0)]); apply (Permutation_cons_append [(0,0);(1,0);(2,0)] (3,0))).
  assert (S1 : forall r, In r [[0;1;2;3]] -> simplex 4 r) by (intros r [<- | []]; split; [reflexivity|]; repeat constructor; cbn; lia).
  assert (S2 : forall r, In r [[3;0;1;2]] -> simplex 4 r) by (intros r [<- | []]; split; [reflexivity|]; repeat constructor; cbn; lia).
  exists corner_tet, [[0;1;2;3]], [[3;0;1;2]], four_pairs. split; [|split; [|split; [|split; [|split; [|split]]]]]; try assumption.
  - exists [[3;0;1;2]]. split; [reflexivity|]. constructor; [|constructor]. apply Permutation_sym, Q2.
  - apply (one_row_used 0 1 2 3). reflexivity.
  - intros uniqK uniqR k UK UR.
    destruct (C42_succeeds uniqK uniqR k 3 (9/10) corner_tet [[0;1;2;3]] four_pairs) as (q & s & H); [discriminate|intros r v J W; apply (one_row_used 0 1 2 3 (Permutation_refl _)); exists r; auto|].
    destruct (C42_succeeds uniqK uniqR k 3 (9/10) corner_tet [[3;0;1;2]] four_pairs) as (q' & s' & H'); [discriminate|intros r v J W; apply (one_row_used 3 0 1 2 Q2); exists r; auto|].
    exists q, s, q', s'. split; [exact H|]. split; [exact H'|].
    destruct (C42_deletes_exactly_poor_boundary _ _ k 3 (9/10) _ _ _ 4 q s UK UR (or_intror eq_refl) S1 P1 A (one_row_used 0 1 2 3 (Permutation_refl _)) ltac:(lia) H) as (K1 & _ & _).
    destruct (C42_deletes_exactly_poor_boundary _ _ k 3 (9/10) _ _ _ 4 q' s' UK UR (or_intror eq_refl) S2 P2 A (one_row_used 3 0 1 2 Q2) ltac:(lia) H') as (_ & B2 & _).
    split.
    + destruct (K1 0) as (r & J & _); [cbn; lia| |intros ->; destruct J]. intros (_ & x & E & L). change (nth 0 [[0;1;2;3]] []) with [0;1;2;3] in E. rewrite face_good in E. injection E as <-. lra.
    + destruct s' as [|r s']; [reflexivity|]. destruct (B2 r (or_introl eq_refl)) as (e & L & ND & _). exfalso. apply ND. assert (e = 0) as -> by (cbn in L; lia). split.
      * exists 0, [0;1;2]. cbn [nth]. split; [cbn; auto|]. split; [cbn; auto|]. split; [repeat constructor; lia|]. split; reflexivity.
      * change (nth 0 [[3;0;1;2]] []) with [3;0;1;2]. exact face_poor.
Qed.
Print Assumptions C115_delete_3d_refuted.

(** ---- a case: two triangles, vertices 0 1 2 3 called 2 0 3 1, the rows swapped ---- *)
Definition turn (v : nat) : nat := match v with 0 => 2 | 1 => 0 | 2 => 3 | _ => 1 end.
Example C115_case : renumbered turn [[0;1;2];[1;3;2]] [[3;1;0];[2;0;3]] /\ distinct_numbers turn [[0;1;2];[1;3;2]] /\
  points_follow turn [[0;1;2];[1;3;2]] [[0;0];[1;0];[0;1];[1;1]]%R [[1;0];[1;1];[0;0];[0;1]]%R /\ (forall r, In r [[0;1;2];[1;3;2]] -> simplex 3 r).
Proof.
  assert (U : forall v, used [[0;1;2];[1;3;2]] v -> v = 0 \/ v = 1 \/ v = 2 \/ v = 3) by (intros v (r & [<- | [<- | []]] & W); cbn in W; lia).
  split; [|split; [|split]].
  - exists [[2;0;3];[3;1;0]]. split; [apply perm_swap|]. constructor; [reflexivity|]. constructor; [|constructor]. cbn.
    change (Permutation [0;1;3] [3;1;0]). apply perm_trans with [1;0;3]; [apply perm_swap|]. apply perm_trans with [1;3;0]; [apply perm_skip, perm_swap|apply perm_swap].
  - intros v w V W E. destruct (U v V) as [-> | [-> | [-> | ->]]], (U w W) as [-> | [-> | [-> | ->]]]; cbn in E; try reflexivity; discriminate.
  - intros v V. destruct (U v V) as [-> | [-> | [-> | ->]]]; reflexivity.
  - intros r [<- | [<- | []]]; (split; [reflexivity|]); repeat constructor; cbn; lia.
Qed.
