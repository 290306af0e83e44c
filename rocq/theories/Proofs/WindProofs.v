(** get_winded_boundary_edges: termination, trail, closed loop, one component. *)
From Coq Require Import List ZArith Bool Arith Lia Permutation Sorted.
From Verif Require Import Model.Base Model.Mesh Spec.MeshTopo Proofs.ListAux Proofs.MeshAux Proofs.VtoeProofs Proofs.EdgeProofs Proofs.TopoProofs.
Import ListNotations.

Lemma edge_has_in v e : edge_has v e = true <-> In v e.
Proof. exact (has_in e v). Qed.

Lemma first_choice_some v : forall be vs i c, length vs = length be -> first_choice be vs i v = Some c ->
  exists k, c = i + k /\ k < length be /\ In v (nth k be []) /\ nth k vs false = false.
Proof.
  induction be as [|e be IH]; intros [|s vs] i c HL H; cbn in H; try discriminate. cbn in HL.
  destruct (edge_has v e && negb s) eqn:E.
  - inversion H; subst. apply andb_true_iff in E. destruct E as [E1 E2]. exists 0. cbn. split; [lia|]. split; [lia|]. split; [apply edge_has_in, E1|apply negb_true_iff, E2].
  - destruct (IH vs (S i) c ltac:(lia) H) as [k [A [B [C D]]]]. exists (S k). cbn. repeat split; try lia; assumption.
Qed.
Lemma first_choice_none v : forall be vs i, length vs = length be -> first_choice be vs i v = None ->
  forall k, k < length be -> In v (nth k be []) -> nth k vs false = true.
Proof.
  induction be as [|e be IH]; intros [|s vs] i HL H k Hk Hv; cbn in *; try lia.
  destruct (edge_has v e && negb s) eqn:E; [discriminate|]. destruct k as [|k].
  - apply edge_has_in in Hv. rewrite Hv in E. cbn in E. destruct s; [reflexivity|discriminate].
  - apply (IH vs (S i)); try assumption; lia.
Qed.
Lemma other_end_spec v e : simplex 2 e -> In v e -> other_end v e <> v /\ (e = [v; other_end v e] \/ e = [other_end v e; v]).
Proof.
  intros [HL HN] Hv. destruct (row2 e HL) as [a [b ->]]. inversion HN as [|? ? N1 _]; subst. cbn in N1.
  assert (a <> b) as NE by (intros ->; apply N1; left; reflexivity). unfold other_end. cbn [filter].
  destruct Hv as [-> | [-> | []]].
  - rewrite Nat.eqb_refl. cbn [negb]. destruct (b =? v) eqn:E; [apply Nat.eqb_eq in E; congruence|]. cbn. split; [congruence|left; reflexivity].
  - destruct (a =? v) eqn:E; [apply Nat.eqb_eq in E; congruence|]. cbn. split; [congruence|right; reflexivity].
Qed.

Lemma walks_snoc vs es w e : walks vs es -> e = [last vs 0; w] \/ e = [w; last vs 0] -> walks (vs ++ [w]) (es ++ [e]).
Proof.
  intros [L W] HE. split; [rewrite !app_length; cbn; lia|]. intros i Hi. rewrite app_length in Hi. cbn in Hi.
  assert (last vs 0 = nth (length es) vs 0) as LV.
  { destruct vs as [|x vs] using rev_ind; [cbn in L; lia|]. rewrite last_last. rewrite app_length in L. cbn in L. rewrite app_nth2 by lia.
    replace (length es - length vs) with 0 by lia. reflexivity. }
  destruct (Nat.eq_dec i (length es)) as [-> | NE].
  - rewrite (app_nth2 es) by lia. rewrite (app_nth1 vs) by lia. rewrite (app_nth2 vs) by lia.
    rewrite L. rewrite !Nat.sub_diag. cbn [nth]. rewrite <- LV. exact HE.
  - rewrite !app_nth1 by lia. apply W. lia.
Qed.

Section Wind.
Variable be : list row.
Hypothesis HB : forall e, In e be -> simplex 2 e.
Variable v0 : nat.

Record inv (visited : list bool) (ord : list nat) (v : nat) (vs : list nat) : Prop := mkInv {
  i_len : length visited = length be;
  i_vis : forall i, i < length be -> (nth i visited false = true <-> In i ord);
  i_nd : NoDup ord;
  i_lt : forall i, In i ord -> i < length be;
  i_walk : walks vs (map (fun i => nth i be []) ord);
  i_last : last vs 0 = v;
  i_first : nth 0 vs 0 = v0;
  i_hd : nth_error ord 0 = Some 0 }.

Lemma wind_run : forall fuel visited ord v vs, inv visited ord v vs -> length be - length ord < fuel ->
  exists visited' ord' v' vs', wind_loop fuel be visited ord v = Some ord' /\ inv visited' ord' v' vs' /\
    forall k, k < length be -> In v' (nth k be []) -> In k ord'.
Proof.
  induction fuel as [|fuel IH]; intros visited ord v vs HI HF; [lia|]. cbn [wind_loop].
  destruct (first_choice be visited 0 v) as [c|] eqn:E.
  - destruct (first_choice_some v be visited 0 c (i_len _ _ _ _ HI) E) as [k [-> [Hk [Hv Hf]]]]. cbn [Nat.add].
    assert (~ In k ord) as NI. { intros K. apply (i_vis _ _ _ _ HI k Hk) in K. congruence. }
    assert (simplex 2 (nth k be [])) as SK by (apply HB, nth_In, Hk).
    destruct (other_end_spec v (nth k be []) SK Hv) as [_ OE].
    assert (inv (upd visited k true) (ord ++ [k]) (other_end v (nth k be [])) (vs ++ [other_end v (nth k be [])])) as HI'.
    { destruct HI as [L V N T W LA FI HD]. constructor.
      - rewrite upd_length. exact L.
      - intros i Hi. rewrite nth_upd by lia. rewrite in_app_iff. cbn. destruct (Nat.eq_dec k i) as [->|NE]; [tauto|]. rewrite (V i Hi). intuition.
      - apply NoDup_app_intro; [exact N|repeat constructor; intros []|]. intros x Hx [<- | []]. contradiction.
      - intros i Hi. apply in_app_iff in Hi. destruct Hi as [Hi|[<- | []]]; [apply T, Hi|exact Hk].
      - rewrite map_app. apply walks_snoc; [exact W|]. rewrite LA. exact OE.
      - apply last_last.
      - destruct vs as [|x vs]; [destruct W as [W _]; rewrite map_length in W; cbn in W; lia|]. exact FI.
      - destruct ord; [discriminate|exact HD]. }
    apply (IH _ _ _ _ HI'). rewrite app_length. cbn [length].
    assert (length (ord ++ [k]) <= length be) as LE.
    { replace (length be) with (length (seq 0 (length be))) by apply seq_length. apply NoDup_incl_length; [apply HI'|].
      intros x Hx. apply in_seq. pose proof (i_lt _ _ _ _ HI' x Hx). lia. }
    rewrite app_length in LE. cbn in LE. lia.
  - exists visited, ord, v, vs. split; [reflexivity|]. split; [exact HI|]. intros k Hk Hv. apply (i_vis _ _ _ _ HI k Hk).
    apply (first_choice_none v be visited 0 (i_len _ _ _ _ HI) E k Hk Hv).
Qed.
End Wind.

(** parity of a trail *)
Definition one (b : bool) : nat := if b then 1 else 0.
Lemma walks_cons vs e es : walks vs (e :: es) -> exists x y vs', vs = x :: y :: vs' /\ (e = [x; y] \/ e = [y; x]) /\ walks (y :: vs') es.
Proof.
  intros [L W]. destruct vs as [|x [|y vs]]; cbn in L; try lia. exists x, y, vs. split; [reflexivity|]. split; [exact (W 0 ltac:(cbn; lia))|].
  split; [cbn; lia|]. intros i Hi. exact (W (S i) ltac:(cbn; lia)).
Qed.
Lemma trail_parity w es : forall vs, walks vs es -> (forall e, In e es -> simplex 2 e) ->
  exists k, degree w es + one (nth 0 vs 0 =? w) + one (last vs 0 =? w) = 2 * k.
Proof.
  induction es as [|e es IH]; intros vs HW HS.
  - destruct HW as [L _]. destruct vs as [|x [|y vs]]; cbn in L; try lia. cbn. unfold degree; cbn. exists (one (x =? w)). lia.
  - destruct (walks_cons vs e es HW) as [x [y [vs' [-> [HE HW']]]]]. destruct (IH _ HW' (fun f Hf => HS f (or_intror Hf))) as [k Hk].
    cbn [nth] in Hk |- *. change (last (x :: y :: vs') 0) with (last (y :: vs') 0). unfold degree in *. cbn [filter].
    destruct (HS e (or_introl eq_refl)) as [_ ND].
    assert (x <> y) as NE by (destruct HE as [-> | ->]; inversion ND as [|? ? N1 _]; cbn in N1; intros ->; apply N1; left; reflexivity).
    assert (has e w = (x =? w) || (y =? w)) as HH.
    { apply eq_true_iff_eq. rewrite has_in, orb_true_iff, !Nat.eqb_eq. destruct HE as [-> | ->]; cbn; tauto. }
    rewrite HH. destruct (x =? w) eqn:E1, (y =? w) eqn:E2; cbn [orb one length] in *; rewrite ?Nat.eqb_eq in *; try congruence.
    + exists (S k). lia.
    + exists k. lia.
    + exists k. lia.
Qed.
Lemma degree_incl v (res be : list row) : NoDup res -> incl res be -> degree v res <= degree v be.
Proof.
  intros HN HI. unfold degree. apply NoDup_incl_length; [apply NoDup_filter, HN|]. intros x Hx. apply filter_In in Hx. apply filter_In. split; [apply HI|]; tauto.
Qed.
Lemma degree_full v (res be : list row) : NoDup res -> incl res be -> degree v be <= degree v res -> forall e, In e be -> In v e -> In e res.
Proof.
  intros HN HI HD e He Hv. unfold degree in HD.
  assert (incl (filter (fun e => has e v) be) (filter (fun e => has e v) res)) as IC.
  { apply NoDup_length_incl; [apply NoDup_filter, HN|exact HD|]. intros x Hx. apply filter_In in Hx. apply filter_In. split; [apply HI|]; tauto. }
  assert (In e (filter (fun e => has e v) res)) as K by (apply IC, filter_In; split; [exact He|apply has_in, Hv]). apply filter_In in K. tauto.
Qed.
Lemma degree_nodup_le v (res be : list row) : NoDup be -> (forall e, In e be -> In v e -> In e res) -> degree v be <= degree v res.
Proof.
  intros HN HI. unfold degree. apply NoDup_incl_length; [apply NoDup_filter, HN|]. intros x Hx. apply filter_In in Hx. destruct Hx as [A B].
  apply filter_In. split; [apply HI; [exact A|apply has_in, B]|exact B].
Qed.

Lemma winded_spec be : be <> [] -> NoDup be -> (forall e, In e be -> simplex 2 e) ->
  exists res vs, get_winded be = Some res /\ NoDup res /\ incl res be /\ nth_error res 0 = nth_error be 0 /\ walks vs res /\
    nth 0 vs 0 = nth 0 (nth 0 be []) 0 /\ (forall e, In e be -> In (last vs 0) e -> In e res).
Proof.
  intros NE ND HB. destruct be as [|e be0] eqn:EB; [congruence|]. rewrite <- EB in *.
  assert (simplex 2 e) as [LE NDE] by (apply HB; rewrite EB; left; reflexivity). destruct (row2 e LE) as [a [b Ee]].
  assert (inv be a (upd (repeat false (length be)) 0 true) [0] b [a; b]) as I0.
  { constructor.
    - rewrite upd_length, repeat_length. reflexivity.
    - intros i Hi. rewrite nth_upd by (rewrite repeat_length, EB; cbn; lia). destruct (Nat.eq_dec 0 i) as [<-|N]; [cbn; tauto|].
      rewrite nth_repeat_lt by exact Hi. cbn. split; [discriminate|]. intros [K|[]]. contradiction.
    - repeat constructor. intros [].
    - intros i [<- | []]. rewrite EB. cbn. lia.
    - split; [reflexivity|]. intros [|i] Hi; cbn in Hi; [|lia]. rewrite EB. cbn. left. exact Ee.
    - reflexivity.
    - reflexivity.
    - reflexivity. }
  destruct (wind_run be HB a (length be) _ _ _ _ I0) as [visited' [ord' [v' [vs' [R [I' F]]]]]].
  { rewrite EB. cbn. lia. }
  exists (map (fun i => nth i be []) ord'), vs'. destruct I' as [L V N T W LA FI HD].
  assert (get_winded be = Some (map (fun i => nth i be []) ord')) as GW.
  { unfold get_winded. rewrite EB at 1. rewrite Ee. cbn [nth]. rewrite R. reflexivity. }
  split; [exact GW|]. split; [|split; [|split; [|split; [|split]]]].
  - clear - N T ND. induction N as [|x l Hx N IH]; [constructor|]. cbn. constructor; [|apply IH; intros; apply T; right; assumption].
    intros K. apply in_map_iff in K. destruct K as [y [E Iy]]. apply Hx. replace x with y; [exact Iy|].
    apply (proj1 (NoDup_nth be []) ND); [apply T; right; exact Iy|apply T; left; reflexivity|exact E].
  - intros x Hx. apply in_map_iff in Hx. destruct Hx as [i [<- Hi]]. apply nth_In, T, Hi.
  - destruct ord' as [|o ord']; [discriminate|]. cbn in HD. inversion HD; subst o. rewrite EB. reflexivity.
  - exact W.
  - rewrite FI, EB, Ee. reflexivity.
  - intros x Hx Hl. rewrite LA in Hl. apply (In_nth _ _ []) in Hx. destruct Hx as [k [Hk <-]]. apply in_map_iff. exists k. split; [reflexivity|]. apply F; assumption.
Qed.

Lemma winded_closed be res vs : NoDup be -> (forall e, In e be -> simplex 2 e) -> (forall v, exists k, degree v be = 2 * k) ->
  NoDup res -> incl res be -> walks vs res -> (forall e, In e be -> In (last vs 0) e -> In e res) -> last vs 0 = nth 0 vs 0.
Proof.
  intros ND HB HE NR IC HW HF. destruct (trail_parity (last vs 0) res vs HW) as [k Hk]; [intros e He; apply HB, IC, He|].
  rewrite Nat.eqb_refl in Hk. destruct (HE (last vs 0)) as [j Hj].
  pose proof (degree_incl (last vs 0) res be NR IC). pose proof (degree_nodup_le (last vs 0) res be ND HF).
  destruct (nth 0 vs 0 =? last vs 0) eqn:E; [apply Nat.eqb_eq in E; congruence|]. cbn [one] in Hk. lia.
Qed.
Lemma winded_component be res vs e0 : NoDup be -> (forall e, In e be -> simplex 2 e) ->
  (forall v e, In e be -> In v e -> degree v be = 2) ->
  NoDup res -> incl res be -> walks vs res -> (forall e, In e be -> In (last vs 0) e -> In e res) -> nth_error res 0 = Some e0 ->
  forall e, In e res <-> joined be e0 e.
Proof.
  intros ND HB HE NR IC HW HF H0.
  assert (forall v, exists k, degree v be = 2 * k) as EV.
  { intros v. destruct (degree v be) as [|d] eqn:D; [exists 0; reflexivity|]. exists 1. unfold degree in D.
    destruct (filter (fun e => has e v) be) as [|f l] eqn:FE; [discriminate|]. assert (In f (filter (fun e => has e v) be)) as If by (rewrite FE; left; reflexivity).
    apply filter_In in If. rewrite <- D, <- FE. apply (HE v f); [tauto|]. apply has_in; tauto. }
  pose proof (winded_closed be res vs ND HB EV NR IC HW HF) as CL.
  assert (forall e f, In e res -> touch be e f -> In f res) as STEP.
  { intros e f He [Ie [If [v [Ve Vf]]]]. apply (degree_full v res be NR IC) with (e := f); try assumption.
    rewrite (HE v e Ie Ve). destruct (trail_parity v res vs HW) as [k Hk]; [intros; apply HB, IC; assumption|].
    rewrite CL in Hk. pose proof (degree_pos v res e He Ve). destruct (nth 0 vs 0 =? v); cbn in Hk; lia. }
  intros e. split.
  - intros He. apply (In_nth _ _ []) in He. destruct He as [i [Hi <-]]. clear - H0 HW IC Hi. induction i as [|i IH].
    + destruct res as [|r res]; [discriminate|]. cbn in H0. inversion H0; subst. constructor.
    + eapply joined_step; [apply IH; lia|]. destruct HW as [L W]. split; [apply IC, nth_In; lia|]. split; [apply IC, nth_In; lia|].
      exists (nth (S i) vs 0). pose proof (W i ltac:(lia)) as W1. pose proof (W (S i) Hi) as W2. split.
      * destruct W1 as [-> | ->]; cbn; tauto.
      * destruct W2 as [-> | ->]; cbn; tauto.
  - induction 1 as [|f g HJ IH HT]; [eapply nth_error_In, H0|]. apply (STEP f g IH HT).
Qed.
