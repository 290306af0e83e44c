(** Edges, unique edges, boundary edges and facets. *)
From Coq Require Import List ZArith Reals Bool Arith Lia Permutation Sorted.
From Verif Require Import Model.Base Model.Mesh Spec.MeshTopo Proofs.MeshAux Proofs.VtoeProofs.
Import ListNotations.

Lemma has_in r v : has r v = true <-> In v r.
Proof.
  unfold has. rewrite existsb_exists. split.
  - intros [x [I E]]. apply Nat.eqb_eq in E. subst. exact I.
  - intros I. exists v. split; [exact I|apply Nat.eqb_refl].
Qed.
Lemma increasing_ss l : increasing l <-> StronglySorted lt l.
Proof.
  split.
  - intros H. apply Sorted_StronglySorted; [intros x y z; lia|]. induction l as [|x l IH]; [constructor|].
    destruct l as [|y l]; [repeat constructor|]. destruct H as [H1 H2]. constructor; [apply IH, H2|constructor; exact H1].
  - intros H. apply StronglySorted_Sorted in H. induction H as [|x l H IH HR]; [exact I|]. destruct l as [|y l]; [exact I|].
    inversion HR; subst. split; assumption.
Qed.
Lemma ss_lt_le l : StronglySorted lt l -> StronglySorted le l.
Proof. induction 1 as [|x l H IH HF]; constructor; [exact IH|]. eapply Forall_impl; [|exact HF]. intros; lia. Qed.
Lemma ss_le_lt l : StronglySorted le l -> NoDup l -> StronglySorted lt l.
Proof.
  induction 1 as [|x l H IH HF]; intros HN; [constructor|]. inversion HN as [|? ? N1 N2]; subst. constructor; [apply IH, N2|].
  rewrite Forall_forall in *. intros y Hy. specialize (HF y Hy). destruct (Nat.eq_dec x y); [subst; contradiction|lia].
Qed.

(** ---- edges of simplices ---- *)
Lemma row3 (r : row) : length r = 3 -> exists a b c, r = [a; b; c].
Proof. destruct r as [|a [|b [|c [|d r]]]]; cbn; intros H; try lia. eauto. Qed.
Lemma row4 (r : row) : length r = 4 -> exists a b c d, r = [a; b; c; d].
Proof. destruct r as [|a [|b [|c [|d [|e r]]]]]; cbn; intros H; try lia. eauto 6. Qed.
Lemma row2 (r : row) : length r = 2 -> exists a b, r = [a; b].
Proof. destruct r as [|a [|b [|c r]]]; cbn; intros H; try lia. eauto. Qed.

Definition edge_ix (dim : nat) : list (list nat) := if dim =? 2 then [[0;1];[0;2];[1;2]] else [[0;1];[1;2];[2;0];[0;3];[1;3];[2;3]].
Definition gen_ix (dim : nat) : list (list nat) := [[0;1];[1;2];[2;0]] ++ (if dim =? 3 then [[0;3];[1;3];[2;3]] else []).
(** an index table that lists every unordered pair of positions below S dim *)
Definition covers (dim : nat) (ix : list (list nat)) : Prop :=
  (forall x, In x ix -> exists i j, x = [i; j] /\ i <= dim /\ j <= dim /\ i <> j) /\
  (forall i j, i <= dim -> j <= dim -> i <> j -> In [i; j] ix \/ In [j; i] ix).
Lemma covers_edge dim : dim = 2 \/ dim = 3 -> covers dim (edge_ix dim).
Proof.
  intros [-> | ->]; split; cbn.
  - intros x [<- | [<- | [<- | []]]]; do 2 eexists; (split; [reflexivity|lia]).
  - intros [|[|[|i]]] [|[|[|j]]] A B C; try lia; tauto.
  - intros x [<- | [<- | [<- | [<- | [<- | [<- | []]]]]]]; do 2 eexists; (split; [reflexivity|lia]).
  - intros [|[|[|[|i]]]] [|[|[|[|j]]]] A B C; try lia; tauto.
Qed.
Lemma covers_gen dim : dim = 2 \/ dim = 3 -> covers dim (gen_ix dim).
Proof.
  intros [-> | ->]; split; cbn.
  - intros x [<- | [<- | [<- | []]]]; do 2 eexists; (split; [reflexivity|lia]).
  - intros [|[|[|i]]] [|[|[|j]]] A B C; try lia; tauto.
  - intros x [<- | [<- | [<- | [<- | [<- | [<- | []]]]]]]; do 2 eexists; (split; [reflexivity|lia]).
  - intros [|[|[|[|i]]]] [|[|[|[|j]]]] A B C; try lia; tauto.
Qed.
Lemma covers_spec dim ix (edges : list row) t : covers dim ix -> (forall r, In r t -> length r = S dim) ->
  (forall e, In e edges <-> exists r x, In r t /\ In x ix /\ e = pick x r) ->
  (forall e, In e edges -> exists r a b, In r t /\ edge_of r a b /\ e = [a; b]) /\
  (forall r a b, In r t -> edge_of r a b -> In [a; b] edges \/ In [b; a] edges).
Proof.
  intros [C1 C2] HL HE. split.
  - intros e He. apply HE in He. destruct He as [r [x [Hr [Hx ->]]]]. destruct (C1 x Hx) as [i [j [-> [Hi [Hj N]]]]].
    exists r, (nth i r 0), (nth j r 0). split; [exact Hr|]. split; [|reflexivity]. exists i, j. rewrite (HL r Hr). repeat split; lia.
  - intros r a b Hr [i [j [Hi [Hj [N [<- <-]]]]]]. rewrite (HL r Hr) in Hi, Hj. destruct (C2 i j ltac:(lia) ltac:(lia) N) as [H|H]; [left|right];
      apply HE; eexists r, _; (split; [exact Hr|split; [exact H|reflexivity]]).
Qed.
Lemma get_edges_in dim t e : In e (get_edges dim t) <-> exists r x, In r t /\ In x (edge_ix dim) /\ e = pick x r.
Proof.
  unfold get_edges. fold (edge_ix dim). rewrite in_flat_map. split.
  - intros [r [Hr H]]. apply in_map_iff in H. destruct H as [x [<- Hx]]. exists r, x. tauto.
  - intros [r [x [Hr [Hx ->]]]]. exists r. split; [exact Hr|]. apply in_map_iff. exists x. tauto.
Qed.
Lemma gen_edges_in dim t e : In e (gen_edges dim t) <-> exists r x, In r t /\ In x (gen_ix dim) /\ e = pick x r.
Proof.
  unfold gen_edges. fold (gen_ix dim). rewrite in_flat_map. split.
  - intros [x [Hx H]]. apply in_map_iff in H. destruct H as [r [<- Hr]]. exists r, x. tauto.
  - intros [r [x [Hr [Hx ->]]]]. exists x. split; [exact Hx|]. apply in_map_iff. exists r. tauto.
Qed.
Lemma get_edges_complete dim t : dim = 2 \/ dim = 3 -> (forall r, In r t -> length r = S dim) ->
  (forall e, In e (get_edges dim t) -> exists r a b, In r t /\ edge_of r a b /\ e = [a; b]) /\
  (forall r a b, In r t -> edge_of r a b -> In [a; b] (get_edges dim t) \/ In [b; a] (get_edges dim t)).
Proof. intros D HL. apply (covers_spec dim (edge_ix dim)); [apply covers_edge, D|exact HL|apply get_edges_in]. Qed.
Lemma gen_edges_complete dim t : dim = 2 \/ dim = 3 -> (forall r, In r t -> length r = S dim) ->
  (forall e, In e (gen_edges dim t) -> exists r a b, In r t /\ edge_of r a b /\ e = [a; b]) /\
  (forall r a b, In r t -> edge_of r a b -> In [a; b] (gen_edges dim t) \/ In [b; a] (gen_edges dim t)).
Proof. intros D HL. apply (covers_spec dim (gen_ix dim)); [apply covers_gen, D|exact HL|apply gen_edges_in]. Qed.

(** ---- sort and unique of pairs ---- *)
Lemma edge_ltb_spec x y : edge_ltb x y = true <-> pair_lt x y.
Proof.
  unfold edge_ltb, pair_lt. rewrite orb_true_iff, andb_true_iff, !Nat.ltb_lt, Nat.eqb_eq. reflexivity.
Qed.
Lemma edge_eqb_spec x y : edge_eqb x y = true <-> x = y.
Proof.
  unfold edge_eqb. rewrite andb_true_iff, !Nat.eqb_eq. destruct x, y; cbn. split; [intros [-> ->]; reflexivity|intros E; inversion E; tauto].
Qed.
Definition pair_le x y := pair_lt x y \/ x = y.
Lemma pair_lt_trans x y z : pair_lt x y -> pair_lt y z -> pair_lt x z.
Proof. unfold pair_lt. lia. Qed.
Lemma pair_total x y : ~ pair_lt x y -> pair_le y x.
Proof.
  unfold pair_le, pair_lt. destruct x as [a b], y as [c d]; cbn. intros H.
  destruct (Nat.eq_dec a c), (Nat.eq_dec b d); subst; [right; reflexivity|left; lia..].
Qed.
Lemma insert_edge_perm x l : Permutation (insert_edge x l) (x :: l).
Proof.
  induction l as [|y l IH]; [reflexivity|]. cbn [insert_edge]. destruct (edge_ltb y x); [|reflexivity]. rewrite IH. apply perm_swap.
Qed.
Lemma sort_edges_perm l : Permutation (sort_edges l) l.
Proof. induction l as [|x l IH]; [reflexivity|]. unfold sort_edges in *. cbn [fold_right]. rewrite insert_edge_perm, IH. reflexivity. Qed.
Lemma insert_edge_sorted x l : StronglySorted pair_le l -> StronglySorted pair_le (insert_edge x l).
Proof.
  induction 1 as [|y l H IH HF]; cbn [insert_edge]; [repeat constructor|]. destruct (edge_ltb y x) eqn:E.
  - apply edge_ltb_spec in E. constructor; [exact IH|]. rewrite Forall_forall in *. intros z Hz.
    apply (Permutation_in _ (insert_edge_perm x l)) in Hz. destruct Hz as [<- | Hz]; [left; exact E|apply HF, Hz].
  - assert (pair_le x y) as L. { apply pair_total. intros K. apply edge_ltb_spec in K. congruence. }
    constructor; [constructor; assumption|]. constructor; [exact L|]. rewrite Forall_forall in *. intros z Hz. specialize (HF z Hz).
    destruct L as [L | ->]; [|exact HF]. destruct HF as [HF | <-]; [|left; exact L]. left. eapply pair_lt_trans; eassumption.
Qed.
Lemma sort_edges_sorted l : StronglySorted pair_le (sort_edges l).
Proof. induction l as [|x l IH]; [constructor|]. unfold sort_edges in *. cbn [fold_right]. apply insert_edge_sorted, IH. Qed.
Lemma std_unique_spec l : StronglySorted pair_le l -> StronglySorted pair_lt (std_unique l) /\ (forall x, In x (std_unique l) <-> In x l) .
Proof.
  induction 1 as [|x l H [IHs IHi] HF]; [split; [constructor|reflexivity]|]. cbn [std_unique]. rewrite Forall_forall in HF.
  destruct (std_unique l) as [|y u] eqn:E.
  - split; [repeat constructor|]. intros z. specialize (IHi z). cbn in *. tauto.
  - assert (pair_le x y) as L by (apply HF, IHi; left; reflexivity).
    inversion IHs as [|? ? Su Fu]; subst. destruct (edge_eqb x y) eqn:EE.
    + apply edge_eqb_spec in EE. subst y. split; [constructor; assumption|]. intros z. specialize (IHi z). cbn in *. tauto.
    + assert (pair_lt x y) as LT. { destruct L as [L | ->]; [exact L|]. rewrite (proj2 (edge_eqb_spec y y) eq_refl) in EE. discriminate. }
      split.
      * constructor; [exact IHs|]. constructor; [exact LT|]. eapply Forall_impl; [|exact Fu]. intros z Hz. eapply pair_lt_trans; eassumption.
      * intros z. specialize (IHi z). cbn in *. tauto.
Qed.
Lemma ss_pairs_increasing l : StronglySorted pair_lt l -> pairs_increasing l.
Proof.
  intros H. apply StronglySorted_Sorted in H. induction H as [|x l H IH HR]; [exact I|]. destruct l as [|y l]; [exact I|].
  inversion HR; subst. split; assumption.
Qed.
Lemma ss_pair_nodup l : StronglySorted pair_lt l -> NoDup l.
Proof.
  induction 1 as [|x l H IH HF]; [constructor|]. constructor; [|exact IH]. intros K. rewrite Forall_forall in HF. apply HF in K. unfold pair_lt in K. lia.
Qed.
Lemma unique_edges_spec es : pairs_increasing (unique_edges es) /\ NoDup (unique_edges es) /\
  forall a b, In (a, b) (unique_edges es) <-> exists e, In e es /\ norm_edge e = (a, b).
Proof.
  unfold unique_edges. destruct (std_unique_spec _ (sort_edges_sorted (map norm_edge es))) as [S I].
  split; [apply ss_pairs_increasing, S|]. split; [apply ss_pair_nodup, S|]. intros a b. rewrite I. split.
  - intros H. apply (Permutation_in _ (sort_edges_perm _)) in H. apply in_map_iff in H. destruct H as [e [A B]]. exists e. tauto.
  - intros [e [A B]]. apply (Permutation_in _ (Permutation_sym (sort_edges_perm _))). apply in_map_iff. exists e. tauto.
Qed.
Lemma edge_of_sym r a b : edge_of r a b -> edge_of r b a.
Proof. intros [i [j H]]. exists j, i. intuition. Qed.
Lemma mesh_unique_edges dim t : dim = 2 \/ dim = 3 -> (forall r, In r t -> length r = S dim) ->
  pairs_increasing (unique_edges (gen_edges dim t)) /\ NoDup (unique_edges (gen_edges dim t)) /\
  forall a b, In (a, b) (unique_edges (gen_edges dim t)) <-> a <= b /\ exists r, In r t /\ edge_of r a b.
Proof.
  intros D HL. destruct (unique_edges_spec (gen_edges dim t)) as [A [B C]]. split; [exact A|]. split; [exact B|].
  destruct (gen_edges_complete dim t D HL) as [G1 G2]. intros a b. rewrite C. split.
  - intros [e [He E]]. destruct (G1 e He) as [r [x [y [Hr [Exy ->]]]]]. cbn in E. inversion E; subst. split; [lia|]. exists r. split; [exact Hr|].
    destruct (Nat.le_ge_cases x y).
    + rewrite Nat.min_l, Nat.max_r by lia. exact Exy.
    + rewrite Nat.min_r, Nat.max_l by lia. apply edge_of_sym, Exy.
  - intros [L [r [Hr Exy]]]. destruct (G2 r a b Hr Exy) as [I|I]; eexists; (split; [exact I|]); cbn; f_equal; lia.
Qed.

(** ---- counting ---- *)
Lemma count_nodup {A} (dec : forall x y : A, {x = y} + {x <> y}) l x : NoDup l -> count_occ dec l x = if in_dec dec x l then 1 else 0.
Proof.
  intros H. destruct (in_dec dec x l) as [I|N].
  - apply NoDup_count_occ' with (decA := dec) in I; assumption.
  - apply count_occ_not_In, N.
Qed.
Lemma count_flat_map (F : row -> list row) (f : row) (P : row -> bool) t :
  (forall r, In r t -> NoDup (F r)) -> (forall r, In r t -> (In f (F r) <-> P r = true)) ->
  count_occ row_dec (flat_map F t) f = length (filter P t).
Proof.
  induction t as [|r t IH]; intros H1 H2; [reflexivity|]. cbn [flat_map filter]. rewrite count_occ_app, IH.
  - rewrite (count_nodup row_dec) by (apply H1; left; reflexivity). destruct (in_dec row_dec f (F r)) as [I|N].
    + rewrite (proj1 (H2 r (or_introl eq_refl)) I). reflexivity.
    + destruct (P r) eqn:E; [|reflexivity]. exfalso. apply N, (H2 r (or_introl eq_refl)), E.
  - intros; apply H1; right; assumption.
  - intros; apply H2; right; assumption.
Qed.
Lemma rows_with_count_in uniq n rows f : uniq_ok uniq -> 0 < n -> (In f (rows_with_count uniq n rows) <-> count_occ row_dec rows f = n).
Proof.
  intros HU Hn. unfold rows_with_count. rewrite filter_In, (proj2 (HU rows)), Nat.eqb_eq. split; [tauto|]. intros E. split; [|exact E].
  apply (count_occ_In row_dec). lia.
Qed.
Lemma rows_with_count_nodup uniq n rows : uniq_ok uniq -> NoDup (rows_with_count uniq n rows).
Proof. intros HU. apply NoDup_filter, HU. Qed.

(** sub-faces of a simplex *)
Lemma sort_eq_incl l m : sort_nat l = sort_nat m -> incl l m.
Proof. intros H x Hx. apply sort_nat_eq in H. apply (Permutation_in _ H), Hx. Qed.
Lemma sorted_face f l : StronglySorted lt f -> NoDup l -> length f = length l -> incl f l -> sort_nat l = f.
Proof.
  intros HS HN HL HI. apply sorted_perm_eq; [apply sort_nat_sorted|apply ss_lt_le, HS|].
  etransitivity; [apply sort_nat_perm|]. symmetry. apply NoDup_Permutation_bis; [apply sorted_lt_nodup, HS|lia|exact HI].
Qed.
Lemma sort_nodup_lt l : NoDup l -> StronglySorted lt (sort_nat l).
Proof. intros H. apply ss_le_lt; [apply sort_nat_sorted|]. eapply Permutation_NoDup; [symmetry; apply sort_nat_perm|exact H]. Qed.
Lemma missing_elt f (r : list nat) : length f < length r -> NoDup r -> exists x, In x r /\ ~ In x f.
Proof.
  intros HL HN. destruct (existsb (fun x => negb (has f x)) r) eqn:E.
  - apply existsb_exists in E. destruct E as [x [I N]]. exists x. split; [exact I|]. intros K. apply has_in in K. rewrite K in N. discriminate.
  - exfalso. assert (incl r f) as IC.
    { intros x Hx. destruct (has f x) eqn:K; [apply has_in, K|]. assert (existsb (fun x => negb (has f x)) r = true); [|congruence].
      apply existsb_exists. exists x. rewrite K. tauto. }
    pose proof (NoDup_incl_length HN IC). lia.
Qed.

Definition tri_edges (r : row) : list row := map sort_nat (map (fun ix => pick ix r) [[0;1];[0;2];[1;2]]).
Definition tet_facets (r : row) : list row := map sort_nat (map (fun ix => pick ix r) [[0;1;3];[1;2;3];[2;0;3];[1;2;0]]).

Ltac nodup_inv H := repeat match type of H with NoDup (_ :: _) => let H1 := fresh "N" in let H2 := fresh "M" in inversion H as [|? ? H1 H2]; subst; clear H; rename H2 into H end.
Ltac solve_nodup := repeat (apply NoDup_cons; [cbn in *; intuition congruence|]); apply NoDup_nil.

Lemma tri_edges_spec r : simplex 3 r -> NoDup (tri_edges r) /\
  forall f, In f (tri_edges r) <-> (increasing f /\ length f = 2 /\ incl f r).
Proof.
  intros [HL HN]. destruct (row3 r HL) as [a [b [c ->]]].
  assert (a <> b /\ a <> c /\ b <> c) as [Nab [Nac Nbc]].
  { inversion HN as [|? ? N1 M1]; subst. inversion M1 as [|? ? N2 M2]; subst. cbn in *. intuition. }
  assert (NoDup [a;b] /\ NoDup [a;c] /\ NoDup [b;c]) as [D1 [D2 D3]] by (repeat split; solve_nodup).
  change (tri_edges [a; b; c]) with [sort_nat [a;b]; sort_nat [a;c]; sort_nat [b;c]]. split.
  - repeat (apply NoDup_cons; [intros K; cbn [In] in K|]); try apply NoDup_nil.
    + destruct K as [K|[K|[]]]; symmetry in K; apply sort_eq_incl in K.
      * specialize (K b ltac:(cbn; tauto)). cbn in K. intuition.
      * specialize (K a ltac:(cbn; tauto)). cbn in K. intuition.
    + destruct K as [K|[]]; symmetry in K; apply sort_eq_incl in K. specialize (K a ltac:(cbn; tauto)). cbn in K. intuition.
    + destruct K.
  - intros f. rewrite increasing_ss. split.
    + cbn [In]. intros [<- | [<- | [<- | []]]]; (split; [apply sort_nodup_lt; assumption|split; [apply sort_nat_length|]]);
        intros x Hx; apply (proj1 (sort_nat_in _ _)) in Hx; cbn in *; tauto.
    + intros [HS [L2 HI]]. destruct (missing_elt f [a;b;c]) as [x [Ix Nx]]; [cbn; lia|exact HN|].
      cbn in Ix. destruct Ix as [<- | [<- | [<- | []]]].
      * right; right; left. apply sorted_face; try assumption. intros y Hy. specialize (HI y Hy). cbn in HI. destruct HI as [<- | HI]; [contradiction|exact HI].
      * right; left. apply sorted_face; try assumption. intros y Hy. specialize (HI y Hy). cbn in *. destruct HI as [<- | [<- | HI]]; tauto.
      * left. apply sorted_face; try assumption. intros y Hy. specialize (HI y Hy). cbn in *. destruct HI as [<- | [<- | [<- | []]]]; tauto.
Qed.
Lemma tet_facets_spec r : simplex 4 r -> NoDup (tet_facets r) /\
  forall f, In f (tet_facets r) <-> (increasing f /\ length f = 3 /\ incl f r).
Proof.
  intros [HL HN]. destruct (row4 r HL) as [a [b [c [d ->]]]].
  assert (a <> b /\ a <> c /\ a <> d /\ b <> c /\ b <> d /\ c <> d) as [Nab [Nac [Nad [Nbc [Nbd Ncd]]]]].
  { inversion HN as [|? ? N1 M1]; subst. inversion M1 as [|? ? N2 M2]; subst. inversion M2 as [|? ? N3 M3]; subst. cbn in *. intuition. }
  assert (NoDup [a;b;d] /\ NoDup [b;c;d] /\ NoDup [c;a;d] /\ NoDup [b;c;a]) as [D1 [D2 [D3 D4]]] by (repeat split; solve_nodup).
  change (tet_facets [a; b; c; d]) with [sort_nat [a;b;d]; sort_nat [b;c;d]; sort_nat [c;a;d]; sort_nat [b;c;a]]. split.
  - repeat (apply NoDup_cons; [intros K; cbn [In] in K|]); try apply NoDup_nil; try (destruct K; fail).
    + destruct K as [K|[K|[K|[]]]]; symmetry in K; apply sort_eq_incl in K.
      * specialize (K a ltac:(cbn; tauto)). cbn in K. intuition.
      * specialize (K b ltac:(cbn; tauto)). cbn in K. intuition.
      * specialize (K d ltac:(cbn; tauto)). cbn in K. intuition.
    + destruct K as [K|[K|[]]]; symmetry in K; apply sort_eq_incl in K.
      * specialize (K b ltac:(cbn; tauto)). cbn in K. intuition.
      * specialize (K d ltac:(cbn; tauto)). cbn in K. intuition.
    + destruct K as [K|[]]; symmetry in K; apply sort_eq_incl in K. specialize (K d ltac:(cbn; tauto)). cbn in K. intuition.
  - intros f. rewrite increasing_ss. split.
    + cbn [In]. intros [<- | [<- | [<- | [<- | []]]]]; (split; [apply sort_nodup_lt; assumption|split; [apply sort_nat_length|]]);
        intros x Hx; apply (proj1 (sort_nat_in _ _)) in Hx; cbn in *; tauto.
    + intros [HS [L2 HI]]. destruct (missing_elt f [a;b;c;d]) as [x [Ix Nx]]; [cbn; lia|exact HN|].
      cbn in Ix. destruct Ix as [<- | [<- | [<- | [<- | []]]]].
      * right; left. apply sorted_face; try assumption. intros y Hy. specialize (HI y Hy). cbn in *. destruct HI as [<- | [<- | [<- | [<- | []]]]]; tauto.
      * right; right; left. apply sorted_face; try assumption. intros y Hy. specialize (HI y Hy). cbn in *. destruct HI as [<- | [<- | [<- | [<- | []]]]]; tauto.
      * left. apply sorted_face; try assumption. intros y Hy. specialize (HI y Hy). cbn in *. destruct HI as [<- | [<- | [<- | [<- | []]]]]; tauto.
      * right; right; right; left. apply sorted_face; try assumption. intros y Hy. specialize (HI y Hy). cbn in *. destruct HI as [<- | [<- | [<- | [<- | []]]]]; tauto.
Qed.

Lemma forallb_has_incl f r : forallb (has r) f = true <-> incl f r.
Proof. rewrite forallb_forall. unfold incl. split; intros H x Hx; apply has_in, H, Hx. Qed.
Lemma map_flat_map {A B C} (g : B -> C) (F : A -> list B) l : map g (flat_map F l) = flat_map (fun x => map g (F x)) l.
Proof. induction l as [|x l IH]; [reflexivity|]. cbn. rewrite map_app, IH. reflexivity. Qed.

Lemma boundary_edges_in uniq t f : uniq_ok uniq -> (forall r, In r t -> simplex 3 r) ->
  (In f (get_boundary_edges uniq 2 t) <-> increasing f /\ length f = 2 /\ entities_on f t = 1).
Proof.
  intros HU HT. unfold get_boundary_edges. rewrite rows_with_count_in by (assumption || (cbn; lia)). cbn [Nat.sub].
  unfold get_edges. rewrite map_flat_map. change (2 =? 2) with true. cbn iota. fold tri_edges. change (fun x : row => map sort_nat (map (fun ix => pick ix x) [[0; 1]; [0; 2]; [1; 2]])) with tri_edges.
  split.
  - intros E. assert (In f (flat_map tri_edges t)) as I by (apply (proj2 (count_occ_In row_dec _ _)); unfold gt; rewrite E; lia).
    apply in_flat_map in I. destruct I as [r [Hr Hf]]. apply (proj2 (tri_edges_spec r (HT r Hr))) in Hf. destruct Hf as [A [B _]].
    split; [exact A|]. split; [exact B|]. rewrite <- E. symmetry. apply count_flat_map.
    + intros r' Hr'. apply tri_edges_spec, HT, Hr'.
    + intros r' Hr'. rewrite (proj2 (tri_edges_spec r' (HT r' Hr'))), forallb_has_incl. tauto.
  - intros [A [B E]]. rewrite <- E. apply count_flat_map.
    + intros r' Hr'. apply tri_edges_spec, HT, Hr'.
    + intros r' Hr'. rewrite (proj2 (tri_edges_spec r' (HT r' Hr'))), forallb_has_incl. tauto.
Qed.
Lemma boundary_facets_in uniq t f : uniq_ok uniq -> (forall r, In r t -> simplex 4 r) ->
  (In f (get_boundary_facets uniq t) <-> increasing f /\ length f = 3 /\ entities_on f t = 1).
Proof.
  intros HU HT. unfold get_boundary_facets. rewrite rows_with_count_in by (assumption || lia).
  unfold get_facets. rewrite map_flat_map. change (fun x : row => map sort_nat (map (fun ix => pick ix x) [[0; 1; 3]; [1; 2; 3]; [2; 0; 3]; [1; 2; 0]])) with tet_facets.
  split.
  - intros E. assert (In f (flat_map tet_facets t)) as I by (apply (proj2 (count_occ_In row_dec _ _)); unfold gt; rewrite E; lia).
    apply in_flat_map in I. destruct I as [r [Hr Hf]]. apply (proj2 (tet_facets_spec r (HT r Hr))) in Hf. destruct Hf as [A [B _]].
    split; [exact A|]. split; [exact B|]. rewrite <- E. symmetry. apply count_flat_map.
    + intros r' Hr'. apply tet_facets_spec, HT, Hr'.
    + intros r' Hr'. rewrite (proj2 (tet_facets_spec r' (HT r' Hr'))), forallb_has_incl. tauto.
  - intros [A [B E]]. rewrite <- E. apply count_flat_map.
    + intros r' Hr'. apply tet_facets_spec, HT, Hr'.
    + intros r' Hr'. rewrite (proj2 (tet_facets_spec r' (HT r' Hr'))), forallb_has_incl. tauto.
Qed.
