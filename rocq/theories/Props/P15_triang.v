(** C74, C81, C82: the triangulation object.  CGAL is any implementation meeting the relations cgal_insert, cgal_remove, cgal_move of Model/Triang.v;
    [history s]: s is reached from a new object by some sequence of calls. *)
From Coq Require Import List ZArith Reals Bool Arith Lia Permutation Lra.
From Verif Require Import Model.Base Model.Triang Spec.MeshTopo Proofs.MeshAux Proofs.TriangProofs Proofs.TriEdges.
Import ListNotations.
Local Open Scope nat_scope.

(** the vertex with handle h is at q *)
Definition at_pos (s : tri) (h : nat) (q : list R) : Prop := exists v, In v (verts s) /\ handle v = h /\ pos v = q.

(** ---- C74: after any history, the two arrays of _get_topology describe the triangulation: every vertex position is listed exactly once, there is one row per cell,
    and the rows, read as indices into the first array, are the positions of the corners of the cells ---- *)
Theorem C74_numbering : forall s, history s -> forall p t s', get_topology s = (p, t, s') ->
  NoDup p /\ (forall q, In q p <-> exists h, at_pos s h q) /\ length t = length (cells s) /\
  (forall k, k < length (cells s) ->
     length (nth k t []) = length (nth k (cells s) []) /\
     forall i, i < length (nth k t []) -> let v := nth i (nth k t []) 0 in v < length p /\ at_pos s (nth i (nth k (cells s) []) 0) (nth v p [])) /\
  (* reading again gives the same *)
  exists s'', get_topology s' = (p, t, s'').
Proof.
  intros s H p t s' E. pose proof (history_wf s H) as W. pose proof (topology s W) as T. rewrite E in T. destruct T as (Ep & Lt & T).
  split; [rewrite Ep; apply W|]. split.
  { intros q. rewrite Ep, in_map_iff. split; [intros (v & Eq & I); exists (handle v), v; auto|intros (h & v & I & _ & Eq); exists v; auto]. }
  split; [exact Lt|]. split.
  { intros k Hk. destruct (T k Hk) as (L & F & M). split; [exact L|]. intros i Hi v. rewrite Forall_forall in F. split; [apply F, nth_In, Hi|].
    assert (In (nth i (nth k (cells s) []) 0) (map handle (verts s))) as I. { apply W with (c := nth k (cells s) []); [apply nth_In, Hk|apply nth_In; lia]. }
    apply in_map_iff in I. destruct I as (w & Ew & Iw). exists w. split; [exact Iw|]. split; [exact Ew|].
    assert (nth i (map (fun v => nth v p []) (nth k t [])) [] = nth i (map (vpos s) (nth k (cells s) [])) []) as X by (rewrite M; reflexivity).
    rewrite (nth_map' (fun v => nth v p []) _ i [] 0), (nth_map' (vpos s) _ i [] 0) in X by lia. fold v in X. rewrite X, <- Ew. symmetry. apply vpos_at; assumption. }
  unfold get_topology, get_finite_vertices in E. injection E as <- <- <-. unfold get_topology. cbn [get_finite_vertices]. eexists. cbn [get_finite_vertices verts cells]. rewrite renumber_pos.
  assert (forall l i, renumber i (renumber i l) = renumber i l) as RR by (induction l as [|v l IH]; intros i; cbn; [reflexivity|]; rewrite IH; reflexivity). rewrite RR. reflexivity.
Qed.
Print Assumptions C74_numbering.
(** without get_finite_vertices the rows can be wrong.  First: a point given twice before the k-th one shifts the numbering beyond the end of the vertex array *)
Theorem C74_stale_out_of_range : forall p s k c h, insert empty p s -> k < length p -> length (verts s) <= k -> (forall j, j < length p -> nth j p [] = nth k p [] -> j = k) ->
  In c (cells s) -> In h c -> at_pos s h (nth k p []) -> exists row v, In row (get_finite_cells s) /\ In v row /\ length (fst (get_finite_vertices s)) <= v.
Proof.
  intros p s k c h (W & _ & _ & OLD) Lk Ln UN Ic Ih (v & Iv & Eh & Ep). exists (map (info_of s) c), (info_of s h). split; [apply in_map, Ic|]. split; [apply in_map, Ih|].
  rewrite <- Eh, (info_at s v W Iv). unfold get_finite_vertices. cbn [fst]. rewrite map_length.
  destruct (OLD v Iv) as [I|[]]. unfold insert_pairs in I. cbn [empty verts length] in I. rewrite Ep in I.
  destruct (In_nth _ _ ([], 0) I) as (j & Lj & Ej). rewrite combine_length, seq_length, Nat.min_id in Lj. rewrite combine_nth, seq_nth in Ej by (rewrite ?seq_length; lia). injection Ej as E1 E2. cbn [Nat.add] in E2.
  apply UN in E1; [|exact Lj]. lia.
Qed.
Print Assumptions C74_stale_out_of_range.
(** second: after removing a vertex other than the last and inserting a new point, two vertices carry the same number *)
Theorem C74_stale_clash : forall s i q s1 s2, history s -> S i < length (verts s) -> remove (snd (get_finite_vertices s)) [i] s1 -> ~ In q (map pos (verts s1)) -> insert s1 [q] s2 ->
  exists v w, In v (verts s2) /\ In w (verts s2) /\ handle v <> handle w /\ info_of s2 (handle v) = info_of s2 (handle w).
Proof.
  intros s i q s1 s2 H Li RM NQ (W2 & KEEP & NEW & OLD). pose proof (history_wf s H) as W. pose proof (wf_renumber s W) as WR. set (sr := snd (get_finite_vertices s)) in *.
  assert (verts sr = renumber 0 (verts s)) as EV by reflexivity. assert (length (verts sr) = length (verts s)) as EL by (rewrite EV; apply renumber_length).
  destruct RM as [_ RM]. inversion RM as [|h hs a b c' CR RM' E1 E2 E3]; subst. inversion RM' as [|]; subst. destruct CR as (W1 & v & Eh & P).
  set (n := length (verts s)) in *. set (w := nth (n - 1) (verts sr) (V 0 [] 0)).
  assert (In w (verts sr)) as Iw by (apply nth_In; lia).
  assert (info w = n - 1) as EI. { unfold w. rewrite EV, renumber_nth by lia. reflexivity. }
  assert (w <> v) as NE. { intros X. assert (handle_at sr (n - 1) = handle_at sr i) as Y by (rewrite handle_at_nth by lia; fold w; rewrite X, Eh; reflexivity). apply handle_at_inj in Y; [lia|exact WR|lia|lia]. }
  assert (In w (verts s1)) as Iw1. { assert (In w (v :: verts s1)) as X by (apply (Permutation_in _ P), Iw). destruct X as [X|X]; [congruence|exact X]. }
  assert (length (verts s1) = n - 1) as L1. { apply Permutation_length in P. cbn [length] in P. lia. }
  assert (insert_pairs s1 [q] = [(q, n - 1)]) as EP by (unfold insert_pairs; rewrite L1; reflexivity). rewrite EP in *.
  destruct (NEW q (n - 1) (or_introl eq_refl)) as (u & Iu & Eu). destruct (KEEP w Iw1) as (w' & Iw' & Hw' & Pw').
  assert (info u = n - 1) as EU. { destruct (OLD u Iu) as [[X|[]]|X]; [congruence|]. exfalso. apply NQ. rewrite <- Eu. apply in_map, X. }
  assert (info w' = n - 1) as EW.
  { destruct (OLD w' Iw') as [[X|[]]|X]; [congruence|]. assert (w' = w) as -> by (destruct W1 as (NH & _); clear - NH X Iw1 Hw'; assert (find (fun z => handle z =? handle w) (verts s1) = Some w) as F1 by (apply find_handle; assumption); rewrite <- Hw' in F1; rewrite (find_handle _ _ NH X) in F1; congruence). exact EI. }
  exists u, w'. split; [exact Iu|]. split; [exact Iw'|]. split.
  - intros X. apply NQ. rewrite <- Eu. assert (u = w') as -> by (destruct W2 as (NH & _); pose proof (find_handle _ _ NH Iu) as F1; rewrite X in F1; rewrite (find_handle _ _ NH Iw') in F1; congruence). rewrite Pw'. apply in_map, Iw1.
  - rewrite !info_at by assumption. lia.
Qed.
Print Assumptions C74_stale_clash.
(** a history: insertion of four points, two of them equal, giving one triangle *)
Definition tri3 (a b c : nat) : tri := {| verts := [V 7 [0;0]%R a; V 3 [1;0]%R b; V 5 [0;1]%R c]; cells := [[5;7;3]] |}.
Lemma tri3_wf a b c : wf (tri3 a b c).
Proof.
  unfold wf, tri3. cbn [verts cells map handle pos]. split; [|split].
  - repeat (apply NoDup_cons; [cbn; lia|]); apply NoDup_nil.
  - repeat (apply NoDup_cons; [cbn; intros X; repeat (destruct X as [X|X]; [injection X; lra|]); exact X|]); apply NoDup_nil.
  - intros x h [<- | []] Hh. cbn in *. tauto.
Qed.
Lemma tri3_insert : insert empty [[0;0];[1;0];[0;0];[0;1]]%R (tri3 0 1 3).
Proof.
  split; [apply tri3_wf|]. unfold insert_pairs. cbn [empty verts length seq combine tri3]. split; [intros v []|]. split.
  - intros q i [E|[E|[E|[E|[]]]]]; injection E as <- <-; [exists (V 7 [0;0]%R 0)|exists (V 3 [1;0]%R 1)|exists (V 7 [0;0]%R 0)|exists (V 5 [0;1]%R 3)]; (split; [cbn; auto|reflexivity]).
  - intros v' [<- | [<- | [<- | []]]]; left; cbn; auto 6.
Qed.
Example C74_case : history (tri3 0 1 3) /\ get_finite_cells (tri3 0 1 3) = [[3;0;1]] /\
  get_topology (tri3 0 1 3) = ([[0;0];[1;0];[0;1]]%R, [[2;0;1]], tri3 0 1 2) /\
  exists s1 s2, remove (snd (get_finite_vertices (tri3 0 1 3))) [0] s1 /\ ~ In [5;5]%R (map pos (verts s1)) /\ insert s1 [[5;5]%R] s2.
Proof.
  split; [exact (h_insert _ _ _ h_new tri3_insert)|]. split; [reflexivity|]. split; [reflexivity|].
  exists {| verts := [V 3 [1;0]%R 1; V 5 [0;1]%R 2]; cells := [] |}, {| verts := [V 3 [1;0]%R 1; V 5 [0;1]%R 2; V 9 [5;5]%R 2]; cells := [] |}. split; [|split].
  - split; [repeat constructor|]. cbn. econstructor; [|constructor]. split.
    + split; [|split]; cbn; [repeat (apply NoDup_cons; [cbn; lia|]); apply NoDup_nil| |intros c h []].
      repeat (apply NoDup_cons; [cbn; intros X; repeat (destruct X as [X|X]; [injection X; lra|]); exact X|]); apply NoDup_nil.
    + exists (V 7 [0;0]%R 0). split; [reflexivity|]. apply Permutation_refl.
  - cbn. intros X. repeat (destruct X as [X|X]; [injection X; lra|]). exact X.
  - split; [|unfold insert_pairs; cbn [verts length seq combine]; split; [|split]].
    + split; [|split]; cbn; [repeat (apply NoDup_cons; [cbn; lia|]); apply NoDup_nil| |intros c h []].
      repeat (apply NoDup_cons; [cbn; intros X; repeat (destruct X as [X|X]; [injection X; lra|]); exact X|]); apply NoDup_nil.
    + intros v Hv. exists v. split; [|auto]. destruct Hv as [<- | [<- | []]]; cbn; auto.
    + intros q i [E|[]]. injection E as <- <-. eexists. split; [right; right; left; reflexivity|reflexivity].
    + intros v' [<- | [<- | [<- | []]]]; cbn; auto.
Qed.

(** ---- C81: removing and moving vertices by their index in the array last read ---- *)
Theorem C81_remove : forall s, history s -> forall ixs s', let p := fst (get_finite_vertices s) in
  remove (snd (get_finite_vertices s)) ixs s' ->
  NoDup ixs /\ Permutation (fst (get_finite_vertices s')) (map (fun k => nth k p []) (filter (fun k => negb (existsb (Nat.eqb k) ixs)) (seq 0 (length p)))).
Proof.
  intros s H ixs s' p RM. pose proof (wf_renumber s (history_wf s H)) as W. destruct (remove_spec _ _ _ W RM) as [ND P]. split; [exact ND|].
  unfold p, get_finite_vertices in *. cbn [fst snd verts] in *. rewrite renumber_pos, renumber_length in P. rewrite map_length. exact P.
Qed.
Print Assumptions C81_remove.
(** p' is an edited copy of the array last read, changed at most at the indices given; the new positions are pairwise different and none of them is the position of a vertex *)
Theorem C81_move : forall s, history s -> forall p' ixs s', let p := fst (get_finite_vertices s) in
  length p' = length p -> (forall k, k < length p -> ~ In k ixs -> nth k p' [] = nth k p []) ->
  NoDup ixs -> NoDup (map (fun k => nth k p' []) ixs) -> (forall k, In k ixs -> ~ In (nth k p' []) p) ->
  move (snd (get_finite_vertices s)) ixs (map (fun k => nth k p' []) ixs) s' -> Permutation (fst (get_finite_vertices s')) p'.
Proof.
  intros s H p' ixs s' p L SAME ND NP FREE MV. pose proof (wf_renumber s (history_wf s H)) as W. unfold p, get_finite_vertices in *. cbn [fst snd verts] in *.
  apply (move_spec _ ixs p' s' W); cbn [verts]; rewrite ?renumber_pos, ?renumber_length; try assumption; [rewrite map_length in L; exact L|]. intros k Hk. apply SAME. lia.
Qed.
Print Assumptions C81_move.
(** exchanging two vertices loses one of them: they are moved one after the other *)
Theorem C81_exchange_loses_a_vertex : forall s, history s -> forall i j s', let p := fst (get_finite_vertices s) in
  i < length p -> j < length p -> i <> j -> move (snd (get_finite_vertices s)) [i; j] [nth j p []; nth i p []] s' -> S (length (fst (get_finite_vertices s'))) = length p.
Proof.
  intros s H i j s' p Li Lj NE (_ & _ & M). pose proof (wf_renumber s (history_wf s H)) as W. set (sr := snd (get_finite_vertices s)) in *.
  assert (map pos (verts sr) = p) as EP by (unfold sr, p, get_finite_vertices; cbn; apply renumber_pos). assert (length (verts sr) = length p) as EL by (rewrite <- EP, map_length; reflexivity).
  cbn [map combine] in M. inversion M as [|h1 q1 M1 a1 s1 c1 CM1 M' E1 E2 E3]; subst. inversion M' as [|h2 q2 M2 a2 s2 c2 CM2 M'' E4 E5 E6]; subst. inversion M''; subst. clear M M' M''.
  destruct CM1 as (W1 & v & rest & Ev & P1 & C1). destruct CM2 as (W2 & w & rest' & Ew & P2 & C2).
  assert (In (nth j p []) (map pos rest)) as I1.
  { set (u := nth j (verts sr) (V 0 [] 0)). assert (In u (verts sr)) as Iu by (apply nth_In; lia). assert (pos u = nth j p []) as Eu by (unfold u; rewrite <- EP; symmetry; apply nth_map'; lia).
    rewrite <- Eu. apply in_map. assert (In u (v :: rest)) as X by (apply (Permutation_in _ P1), Iu). destruct X as [X|X]; [|exact X]. exfalso.
    apply NE. apply (handle_at_inj sr); [exact W|lia|lia|]. rewrite <- Ev, X. unfold u. symmetry. apply handle_at_nth. lia. }
  destruct (in_dec pos_dec (nth j p []) (map pos rest)) as [_|X]; [|contradiction].
  assert (~ In (nth i p []) (map pos rest')) as N2.
  { intros X. assert (In (nth i p []) (map pos rest)) as Y. { rewrite <- (Permutation_map pos C1), (Permutation_map pos P2). right. exact X. }
    destruct W as (_ & NP & _). pose proof (Permutation_NoDup (Permutation_map pos P1) NP) as ND. cbn [map] in ND. inversion ND as [|? ? NI _]; subst. apply NI.
    assert (pos v = nth i p []) as ->; [|exact Y]. rewrite <- EP. set (u := nth i (verts sr) (V 0 [] 0)). replace (nth i (map pos (verts sr)) []) with (pos u) by (symmetry; apply nth_map'; lia).
    assert (In u (verts sr)) as Iu by (apply nth_In; lia). assert (handle v = handle u) as HH by (rewrite Ev; apply handle_at_nth; lia).
    assert (In v (verts sr)) as Iv by (apply (Permutation_in _ (Permutation_sym P1)); left; reflexivity).
    pose proof (wf_renumber s (history_wf s H)) as (NH & _). pose proof (find_handle _ _ NH Iu) as F1. rewrite <- HH in F1. rewrite (find_handle _ _ NH Iv) in F1. congruence. }
  destruct (in_dec pos_dec (nth i p []) (map pos rest')) as [X|_]; [contradiction|].
  unfold get_finite_vertices. cbn [fst]. rewrite map_length. apply Permutation_length in P1, C1, P2, C2. cbn [length] in *. lia.
Qed.
Print Assumptions C81_exchange_loses_a_vertex.
Example C81_case : exists s', move (snd (get_finite_vertices (tri3 0 1 3))) [0; 1] [[1;0];[0;0]]%R s' /\ map pos (verts s') = [[0;0];[0;1]]%R.
Proof.
  assert (forall q x y, q <> [0;1]%R -> wf {| verts := [V 3 q x; V 5 [0;1]%R y]; cells := [] |}) as WW.
  { intros q x y NE. split; [|split]; cbn; [repeat (apply NoDup_cons; [cbn; lia|]); apply NoDup_nil| |intros c h []]. apply NoDup_cons; [cbn; intros [X|[]]; congruence|]. apply NoDup_cons; [intros []|apply NoDup_nil]. }
  exists {| verts := [V 3 [0;0]%R 1; V 5 [0;1]%R 2]; cells := [] |}. split; [|reflexivity]. split; [repeat constructor|]. split; [reflexivity|]. cbn [map combine].
  change (handle_at (snd (get_finite_vertices (tri3 0 1 3))) 0) with 7. change (handle_at (snd (get_finite_vertices (tri3 0 1 3))) 1) with 3.
  apply mv_cons with (s' := {| verts := [V 3 [1;0]%R 1; V 5 [0;1]%R 2]; cells := [] |}).
  - split; [apply WW; intros X; injection X; lra|]. exists (V 7 [0;0]%R 0), [V 3 [1;0]%R 1; V 5 [0;1]%R 2]. split; [reflexivity|]. split; [apply Permutation_refl|].
    destruct in_dec as [_|N]; [apply Permutation_refl|]. exfalso. apply N. left. reflexivity.
  - eapply mv_cons; [|apply mv_nil]. split; [apply WW; intros X; injection X; lra|]. exists (V 3 [1;0]%R 1), [V 5 [0;1]%R 2]. split; [reflexivity|]. split; [apply Permutation_refl|].
    destruct in_dec as [X|_]; [|apply Permutation_refl]. exfalso. cbn in X. destruct X as [X|[]]. injection X. lra.
Qed.

(** ---- C82: get_edges reports every edge of the selected cells exactly once, whatever the addresses and the order in which the set is traversed ---- *)
(** [joins a b e]: row e is (a,b) or (b,a); [reports a b es]: number of rows joining a and b *)
Theorem C82_edges_2d : forall t neighbor addr mask order, Forall (simplex 3) t ->
  (* neighbor f i is the other face with the two corners of f different from corner i, if there is one *)
  (forall f i g, f < length t -> i < 3 -> (neighbor f i = Some g <-> g < length t /\ g <> f /\ In (corner t f (cw i)) (nth g t []) /\ In (corner t f (ccw i)) (nth g t []))) ->
  (forall f g, f < length t -> g < length t -> addr f = addr g -> f = g) -> (forall l, Permutation (order l) l) -> length t <= length mask ->
  exists es, get_edges2 order t neighbor addr mask = Some es /\
  forall a b, reports a b es = if Nat.eq_dec a b then 0 else if existsb (fun f => Z.eqb (nth f mask 0%Z) 1 && contains a b (nth f t [])) (seq 0 (length t)) then 1 else 0.
Proof.
  intros t neighbor addr mask order Ht Hn Ha Ho L. eexists. split; [unfold get_edges2; replace (length mask <? length t) with false by (symmetry; apply Nat.ltb_ge; exact L); reflexivity|].
  intros a b. destruct (Nat.eq_dec a b) as [<- |NE].
  - destruct (edges2_loops t neighbor addr mask order Ht Ho a L) as (es & E & R). unfold get_edges2 in E. replace (length mask <? length t) with false in E by (symmetry; apply Nat.ltb_ge; exact L). injection E as <-. exact R.
  - destruct (edges2_once t neighbor addr mask order Ht Hn Ha Ho a b L NE) as (es & E & R). unfold get_edges2 in E. replace (length mask <? length t) with false in E by (symmetry; apply Nat.ltb_ge; exact L). injection E as <-. rewrite R.
    replace (existsb (fun f => contains a b (nth f t [])) (selected mask (length t))) with (existsb (fun f => Z.eqb (nth f mask 0%Z) 1 && contains a b (nth f t [])) (seq 0 (length t))); [reflexivity|].
    apply eq_true_iff_eq. rewrite !existsb_exists. unfold selected. split.
    + intros (f & I & X). apply andb_true_iff in X. exists f. rewrite filter_In. tauto.
    + intros (f & I & X). apply filter_In in I. exists f. rewrite andb_true_iff. tauto.
Qed.
Print Assumptions C82_edges_2d.
Theorem C82_edges_3d : forall t around addr mask order, Forall (simplex 4) t ->
  (* around f a b: the cells having both corners a and b of f *)
  (forall f a b g, f < length t -> a < 4 -> b < 4 -> a <> b -> (In g (around f a b) <-> g < length t /\ In (corner t f a) (nth g t []) /\ In (corner t f b) (nth g t []))) ->
  (forall f g, f < length t -> g < length t -> addr f = addr g -> f = g) -> (forall l, Permutation (order l) l) -> length t <= length mask ->
  exists es, get_edges3 order t around addr mask = Some es /\
  forall a b, reports a b es = if Nat.eq_dec a b then 0 else if existsb (fun f => Z.eqb (nth f mask 0%Z) 1 && contains a b (nth f t [])) (seq 0 (length t)) then 1 else 0.
Proof.
  intros t neighbor addr mask order Ht Hn Ha Ho L. eexists. split; [unfold get_edges3; replace (length mask <? length t) with false by (symmetry; apply Nat.ltb_ge; exact L); reflexivity|].
  intros a b. destruct (Nat.eq_dec a b) as [<- |NE].
  - destruct (edges3_loops t neighbor addr mask order Ht Ho a L) as (es & E & R). unfold get_edges3 in E. replace (length mask <? length t) with false in E by (symmetry; apply Nat.ltb_ge; exact L). injection E as <-. exact R.
  - destruct (edges3_once t neighbor addr mask order Ht Hn Ha Ho a b L NE) as (es & E & R). unfold get_edges3 in E. replace (length mask <? length t) with false in E by (symmetry; apply Nat.ltb_ge; exact L). injection E as <-. rewrite R.
    replace (existsb (fun f => contains a b (nth f t [])) (selected mask (length t))) with (existsb (fun f => Z.eqb (nth f mask 0%Z) 1 && contains a b (nth f t [])) (seq 0 (length t))); [reflexivity|].
    apply eq_true_iff_eq. rewrite !existsb_exists. unfold selected. split.
    + intros (f & I & X). apply andb_true_iff in X. exists f. rewrite filter_In. tauto.
    + intros (f & I & X). apply filter_In in I. exists f. rewrite andb_true_iff. tauto.
Qed.
Print Assumptions C82_edges_3d.
(** two triangles sharing an edge, both selected: five edges; one selected: three *)
Example C82_case : let t := [[0;1;2];[2;1;3]] in let nb := fun f i => match f, i with 0, 0 => Some 1 | 1, 2 => Some 0 | _, _ => None end in
  (forall f i g, f < length t -> i < 3 -> (nb f i = Some g <-> g < length t /\ g <> f /\ In (corner t f (cw i)) (nth g t []) /\ In (corner t f (ccw i)) (nth g t []))) /\
  get_edges2 (fun l => rev l) t nb Z.of_nat [1;1]%Z = Some [(3,1);(2,3);(2,1);(0,2);(1,0)] /\ get_edges2 (fun l => l) t nb Z.of_nat [0;1]%Z = Some [(3,1);(2,3);(1,2)].
Proof.
  split; [|split; reflexivity]. intros f i g Hf Hi. cbn [length] in *. destruct f as [|[|]]; [| |lia]; destruct i as [|[|[|]]]; try lia; destruct g as [|[|[|]]]; cbn; split; intros X; try discriminate X; try lia; try reflexivity.
  all: try (repeat split; lia). all: try (exfalso; destruct X as (_ & _ & X1 & X2); lia).
Qed.
