From Coq Require Import List ZArith Bool Arith Lia Permutation.
From Verif Require Import Model.Base Model.Triang Spec.MeshTopo Proofs.MeshAux Proofs.TriangProofs.
Import ListNotations.
Local Open Scope nat_scope.

Lemma reports_app a b l1 l2 : reports a b (l1 ++ l2) = reports a b l1 + reports a b l2.
Proof. unfold reports. rewrite filter_app, app_length. reflexivity. Qed.
Lemma reports_flat {A} a b (f : A -> list (nat * nat)) l : reports a b (flat_map f l) = list_sum (map (fun x => reports a b (f x)) l).
Proof. induction l as [|x l IH]; [reflexivity|]. cbn [flat_map map]. rewrite reports_app, IH. reflexivity. Qed.
(** only the cell with the smallest address reports *)
Section Min.
Variable addr : nat -> Z.
Variable P : nat -> bool.
Lemma smallest l : (exists x, In x l /\ P x = true) -> exists m, In m l /\ P m = true /\ forall g, In g l -> P g = true -> (addr m <= addr g)%Z.
Proof.
  induction l as [|x l IH]; intros (y & I & Y); [destruct I|].
  destruct (existsb P l) eqn:E.
  - apply existsb_exists in E. destruct (IH E) as (m & Im & Pm & Hm). destruct (P x) eqn:Px.
    + destruct (Z_le_gt_dec (addr x) (addr m)) as [L|L].
      * exists x. split; [left; reflexivity|]. split; [exact Px|]. intros g [<- |Ig] Pg; [lia|]. specialize (Hm g Ig Pg). lia.
      * exists m. split; [right; exact Im|]. split; [exact Pm|]. intros g [<- |Ig] Pg; [lia|]. exact (Hm g Ig Pg).
    + exists m. split; [right; exact Im|]. split; [exact Pm|]. intros g [<- |Ig] Pg; [congruence|]. exact (Hm g Ig Pg).
  - destruct I as [-> |I]; [|exfalso; apply not_true_iff_false in E; apply E; apply existsb_exists; exists y; auto].
    exists y. split; [left; reflexivity|]. split; [exact Y|]. intros g [<- |Ig] Pg; [lia|]. exfalso. apply not_true_iff_false in E. apply E. apply existsb_exists. exists g. auto.
Qed.
Lemma once (l : list nat) (c : nat -> nat) : NoDup l -> (forall f g, In f l -> In g l -> addr f = addr g -> f = g) ->
  (forall f, In f l -> P f = false -> c f = 0) ->
  (forall f, In f l -> P f = true -> (exists g, In g l /\ P g = true /\ (addr g < addr f)%Z) -> c f = 0) ->
  (forall f, In f l -> P f = true -> (forall g, In g l -> P g = true -> (addr f <= addr g)%Z) -> c f = 1) ->
  list_sum (map c l) = if existsb P l then 1 else 0.
Proof.
  intros ND INJ C0 C1 C2. destruct (existsb P l) eqn:E.
  - apply existsb_exists in E. destruct (smallest l E) as (m & Im & Pm & Hm).
    assert (forall f, In f l -> f <> m -> c f = 0) as Z.
    { intros f If NE. destruct (P f) eqn:Pf; [|apply C0; assumption]. apply C1; [exact If|exact Pf|]. exists m. split; [exact Im|]. split; [exact Pm|].
      pose proof (Hm f If Pf). destruct (Z.eq_dec (addr m) (addr f)) as [X|X]; [|lia]. exfalso. apply NE. symmetry. apply INJ; assumption. }
    assert (c m = 1) as M by (apply C2; assumption). clear - ND Im Z M. induction l as [|x l IH]; [destruct Im|]. inversion ND as [|? ? NI ND']; subst. cbn [map]. unfold list_sum in *. cbn [fold_right].
    destruct (Nat.eq_dec x m) as [-> |NE].
    + rewrite M. assert (fold_right Nat.add 0 (map c l) = 0) as ->; [|reflexivity].
      assert (forall f, In f l -> c f = 0) as Z'. { intros f If. apply Z; [right; exact If|]. intros ->. contradiction. }
      clear - Z'. induction l as [|y l IH]; [reflexivity|]. cbn. rewrite Z' by (left; reflexivity). apply IH. intros f If. apply Z'. right. exact If.
    + rewrite (Z x (or_introl eq_refl) NE). cbn [Nat.add]. destruct Im as [-> |Im]; [congruence|]. apply IH; [exact ND'|exact Im|]. intros f If. apply Z. right. exact If.
  - assert (forall f, In f l -> c f = 0) as Z. { intros f If. apply C0; [exact If|]. apply not_true_iff_false. intros Pf. apply not_true_iff_false in E. apply E. apply existsb_exists. exists f. auto. }
    clear - Z. induction l as [|y l IH]; [reflexivity|]. cbn. rewrite Z by (left; reflexivity). apply IH. intros f If. apply Z. right. exact If.
Qed.
End Min.
Lemma has_spec r v : has r v = true <-> In v r.
Proof. apply is_in_spec. Qed.
Lemma selected_spec mask n f : In f (selected mask n) <-> f < n /\ nth f mask 0%Z = 1%Z.
Proof. unfold selected. rewrite filter_In, in_seq, Z.eqb_eq. split; intros [A B]; (split; [lia|exact B]). Qed.
Lemma selected_nodup mask n : NoDup (selected mask n).
Proof. apply NoDup_filter, seq_NoDup. Qed.
Lemma list_sum_perm l l' : Permutation l l' -> list_sum l = list_sum l'.
Proof. unfold list_sum. induction 1; cbn; lia. Qed.

Section E2.
Variable t : list (list nat).
Variable neighbor : nat -> nat -> option nat.
Variable addr : nat -> Z.
Variable mask : list Z.
Variable order : list nat -> list nat.
Hypothesis Ht : Forall (simplex 3) t.
Hypothesis Hn : forall f i g, f < length t -> i < 3 -> (neighbor f i = Some g <-> g < length t /\ g <> f /\ In (corner t f (cw i)) (nth g t []) /\ In (corner t f (ccw i)) (nth g t [])).
Hypothesis Ha : forall f g, f < length t -> g < length t -> addr f = addr g -> f = g.
Hypothesis Ho : forall l, Permutation (order l) l.
Let sel := selected mask (length t).
Lemma corner3 f : f < length t -> nth f t [] = [corner t f 0; corner t f 1; corner t f 2] /\ corner t f 0 <> corner t f 1 /\ corner t f 0 <> corner t f 2 /\ corner t f 1 <> corner t f 2.
Proof.
  intros L. rewrite Forall_forall in Ht. destruct (Ht (nth f t []) (nth_In _ _ L)) as [E ND]. unfold corner. destruct (nth f t []) as [|a [|b [|c [|]]]]; try discriminate. cbn.
  split; [reflexivity|]. inversion ND as [|? ? N1 N2]; subst. inversion N2 as [|? ? N3 N4]; subst. cbn in *. intuition congruence.
Qed.
Lemma skip_spec f i : f < length t -> i < 3 ->
  (match neighbor f i with Some g => (addr g <? addr f)%Z && is_in sel g | None => false end) = true <->
  exists g, In g sel /\ In (corner t f (cw i)) (nth g t []) /\ In (corner t f (ccw i)) (nth g t []) /\ (addr g < addr f)%Z.
Proof.
  intros L Hi. destruct (neighbor f i) as [g|] eqn:E.
  - rewrite andb_true_iff, Z.ltb_lt, is_in_spec. split.
    + intros [A B]. apply Hn in E; [|exact L|exact Hi]. exists g. tauto.
    + intros (g' & I & C1 & C2 & A). assert (neighbor f i = Some g') as E'. { apply Hn; [exact L|exact Hi|]. apply selected_spec in I. split; [tauto|]. split; [intros ->; lia|tauto]. }
      rewrite E in E'. injection E' as <-. tauto.
  - split; [discriminate|]. intros (g' & I & C1 & C2 & A). exfalso. assert (neighbor f i = Some g') as E'. { apply Hn; [exact L|exact Hi|]. apply selected_spec in I. split; [tauto|]. split; [intros ->; lia|tauto]. }
    congruence.
Qed.
Lemma face_reports a b f : In f sel -> a <> b ->
  (contains a b (nth f t []) = false -> reports a b (face_edges t neighbor addr sel f) = 0) /\
  (contains a b (nth f t []) = true -> ((exists g, In g sel /\ contains a b (nth g t []) = true /\ (addr g < addr f)%Z) -> reports a b (face_edges t neighbor addr sel f) = 0) /\
     ((forall g, In g sel -> contains a b (nth g t []) = true -> (addr f <= addr g)%Z) -> reports a b (face_edges t neighbor addr sel f) = 1)).
Proof.
  intros If NE. assert (f < length t) as L by (apply selected_spec in If; tauto). destruct (corner3 f L) as (ER & D1 & D2 & D3).
  pose proof (skip_spec f 0 L ltac:(lia)) as S0. pose proof (skip_spec f 1 L ltac:(lia)) as S1. pose proof (skip_spec f 2 L ltac:(lia)) as S2.
  unfold face_edges. cbn [flat_map]. rewrite app_nil_r. cbn [cw ccw] in *.
  set (k0 := match neighbor f 0 with Some g => _ | None => _ end) in *. set (k1 := match neighbor f 1 with Some g => _ | None => _ end) in *. set (k2 := match neighbor f 2 with Some g => _ | None => _ end) in *.
  rewrite !reports_app.
  assert (forall k x y, reports a b (if k : bool then [] else [(x, y)]) = if negb k && joins a b (x, y) then 1 else 0) as RR by (intros [] x y; cbn; [reflexivity|]; destruct (joins a b (x, y)); reflexivity).
  rewrite !RR. clear RR.
  assert (forall x y, joins a b (x, y) = true <-> (x = a /\ y = b) \/ (x = b /\ y = a)) as JJ by (intros x y; unfold joins; cbn [fst snd]; rewrite orb_true_iff, !andb_true_iff, !Nat.eqb_eq; tauto).
  assert (contains a b (nth f t []) = true <-> In a [corner t f 0; corner t f 1; corner t f 2] /\ In b [corner t f 0; corner t f 1; corner t f 2]) as CC by (unfold contains; rewrite ER, andb_true_iff, !has_spec; tauto).
  assert (forall g, contains a b (nth g t []) = true <-> In a (nth g t []) /\ In b (nth g t [])) as CG by (intros g; unfold contains; rewrite andb_true_iff, !has_spec; tauto).
  set (x := corner t f 0) in *. set (y := corner t f 1) in *. set (z := corner t f 2) in *. clearbody x y z k0 k1 k2.
  split; [|intros C; apply CC in C; split].
  - intros C. assert (joins a b (z, y) = false /\ joins a b (x, z) = false /\ joins a b (y, x) = false) as (-> & -> & ->).
    { apply not_true_iff_false in C. rewrite CC in C. rewrite <- !not_true_iff_false, !JJ. cbn [In] in C. repeat split; intros X; apply C; destruct X as [[<- <-]|[<- <-]]; tauto. }
    rewrite !andb_false_r. reflexivity.
  - intros (g & Ig & Cg & Ag). apply CG in Cg.
    assert ((joins a b (z, y) = true -> k0 = true) /\ (joins a b (x, z) = true -> k1 = true) /\ (joins a b (y, x) = true -> k2 = true)) as (X0 & X1 & X2).
    { split; [|split]; intros J; apply JJ in J; [apply S0|apply S1|apply S2]; exists g; (split; [exact Ig|]); destruct J as [[<- <-]|[<- <-]]; tauto. }
    destruct (joins a b (z, y)), (joins a b (x, z)), (joins a b (y, x)); rewrite ?X0, ?X1, ?X2 by reflexivity; rewrite ?andb_false_r; reflexivity.
  - intros M.
    assert ((joins a b (z, y) = true -> k0 = false) /\ (joins a b (x, z) = true -> k1 = false) /\ (joins a b (y, x) = true -> k2 = false)) as (X0 & X1 & X2).
    { split; [|split]; intros J; apply JJ in J; apply not_true_iff_false; intros K; [apply S0 in K|apply S1 in K|apply S2 in K]; destruct K as (g & Ig & C1 & C2 & Ag);
        (assert (contains a b (nth g t []) = true) as Cg by (apply CG; destruct J as [[<- <-]|[<- <-]]; tauto)); specialize (M g Ig Cg); lia. }
    cbn [In] in C.
    assert ((joins a b (z, y) = true /\ joins a b (x, z) = false /\ joins a b (y, x) = false) \/ (joins a b (z, y) = false /\ joins a b (x, z) = true /\ joins a b (y, x) = false) \/ (joins a b (z, y) = false /\ joins a b (x, z) = false /\ joins a b (y, x) = true)) as J.
    { rewrite <- !not_true_iff_false, !JJ. destruct C as [[<- | [<- | [<- | []]]] [<- | [<- | [<- | []]]]]; try congruence; intuition congruence. }
    destruct J as [(J0 & J1 & J2)|[(J0 & J1 & J2)|(J0 & J1 & J2)]]; rewrite J0, J1, J2; rewrite ?(X0 J0), ?(X1 J1), ?(X2 J2); cbn [negb andb]; rewrite ?andb_false_r; reflexivity.
Qed.
Lemma edges2_once a b : length t <= length mask -> a <> b -> exists es, get_edges2 order t neighbor addr mask = Some es /\
  reports a b es = if existsb (fun f => contains a b (nth f t [])) sel then 1 else 0.
Proof.
  intros L NE. eexists. split.
  - unfold get_edges2. replace (length mask <? length t) with false by (symmetry; apply Nat.ltb_ge; exact L). reflexivity.
  - fold sel. rewrite reports_flat. rewrite (list_sum_perm _ _ (Permutation_map _ (Ho sel))).
    apply (once addr (fun f => contains a b (nth f t []))).
    + apply selected_nodup.
    + intros f g If Ig. apply Ha; [apply selected_spec in If|apply selected_spec in Ig]; tauto.
    + intros f If. apply (face_reports a b f If NE).
    + intros f If. apply (face_reports a b f If NE).
    + intros f If. apply (face_reports a b f If NE).
Qed.
Lemma edges2_loops a : length t <= length mask -> exists es, get_edges2 order t neighbor addr mask = Some es /\ reports a a es = 0.
Proof.
  intros L. eexists. split.
  - unfold get_edges2. replace (length mask <? length t) with false by (symmetry; apply Nat.ltb_ge; exact L). reflexivity.
  - fold sel. rewrite reports_flat. assert (forall l, (forall f, In f l -> f < length t) -> list_sum (map (fun f => reports a a (face_edges t neighbor addr sel f)) l) = 0) as G.
    { induction l as [|f l IH]; intros H; [reflexivity|]. cbn [map]. unfold list_sum in *. cbn [fold_right]. rewrite IH by (intros g Hg; apply H; right; exact Hg). rewrite Nat.add_0_r.
      destruct (corner3 f (H f (or_introl eq_refl))) as (_ & D1 & D2 & D3). unfold face_edges. cbn [flat_map]. rewrite app_nil_r, !reports_app. cbn [cw ccw].
      assert (forall (k : bool) x y, x <> y -> reports a a (if k then [] else [(x, y)]) = 0) as RR.
      { intros [] x y NE; [reflexivity|]. unfold reports, joins. cbn. destruct (Nat.eqb_spec x a), (Nat.eqb_spec y a); cbn; try reflexivity; congruence. }
      rewrite !RR by congruence. reflexivity. }
    apply G. intros f If. apply (Permutation_in _ (Ho sel)) in If. apply selected_spec in If. tauto.
Qed.
End E2.

Section E3.
Variable t : list (list nat).
Variable around : nat -> nat -> nat -> list nat.
Variable addr : nat -> Z.
Variable mask : list Z.
Variable order : list nat -> list nat.
Hypothesis Ht : Forall (simplex 4) t.
Hypothesis Hn : forall f a b g, f < length t -> a < 4 -> b < 4 -> a <> b -> (In g (around f a b) <-> g < length t /\ In (corner t f a) (nth g t []) /\ In (corner t f b) (nth g t [])).
Hypothesis Ha : forall f g, f < length t -> g < length t -> addr f = addr g -> f = g.
Hypothesis Ho : forall l, Permutation (order l) l.
Let sel := selected mask (length t).
Lemma tet_ok a b : In (a, b) tet_edges -> a < 4 /\ b < 4 /\ a <> b.
Proof. unfold tet_edges. cbn [In]. intros H. repeat (destruct H as [E|H]; [injection E as <- <-; lia|]). destruct H. Qed.
Lemma skip3_spec f a b : f < length t -> In (a, b) tet_edges ->
  existsb (fun g => (addr g <? addr f)%Z && is_in sel g) (around f a b) = true <->
  exists g, In g sel /\ In (corner t f a) (nth g t []) /\ In (corner t f b) (nth g t []) /\ (addr g < addr f)%Z.
Proof.
  intros L I. destruct (tet_ok a b I) as (La & Lb & NE). rewrite existsb_exists. split.
  - intros (g & Ig & H). rewrite andb_true_iff, Z.ltb_lt, is_in_spec in H. apply Hn in Ig; [|assumption..]. exists g. tauto.
  - intros (g & Ig & C1 & C2 & A). exists g. rewrite andb_true_iff, Z.ltb_lt, is_in_spec. split; [|tauto]. apply Hn; [assumption..|]. apply selected_spec in Ig. tauto.
Qed.
Lemma corner4 f : f < length t -> exists x y z w, nth f t [] = [x; y; z; w] /\ NoDup [x; y; z; w].
Proof.
  intros L. rewrite Forall_forall in Ht. destruct (Ht (nth f t []) (nth_In _ _ L)) as [E ND]. destruct (nth f t []) as [|a [|b [|c [|d [|]]]]]; try discriminate. exists a, b, c, d. split; [reflexivity|exact ND].
Qed.
Lemma cell_reports a b f : In f sel -> a <> b ->
  (contains a b (nth f t []) = false -> reports a b (cell_edges t around addr sel f) = 0) /\
  (contains a b (nth f t []) = true -> ((exists g, In g sel /\ contains a b (nth g t []) = true /\ (addr g < addr f)%Z) -> reports a b (cell_edges t around addr sel f) = 0) /\
     ((forall g, In g sel -> contains a b (nth g t []) = true -> (addr f <= addr g)%Z) -> reports a b (cell_edges t around addr sel f) = 1)).
Proof.
  intros If NE. assert (f < length t) as L by (apply selected_spec in If; tauto).
  assert (forall g, contains a b (nth g t []) = true <-> In a (nth g t []) /\ In b (nth g t [])) as CG by (intros g; unfold contains; rewrite andb_true_iff, !has_spec; tauto).
  set (kept := fun e : nat * nat => negb (existsb (fun g => (addr g <? addr f)%Z && is_in sel g) (around f (fst e) (snd e))) && joins a b (corner t f (fst e), corner t f (snd e))).
  assert (reports a b (cell_edges t around addr sel f) = length (filter kept tet_edges)) as ->.
  { unfold cell_edges. rewrite reports_flat. generalize tet_edges. induction l as [|e l IH]; [reflexivity|]. cbn [map filter]. unfold list_sum in *. cbn [fold_right]. rewrite IH. unfold kept at 2.
    destruct (existsb _ _); cbn [negb andb]; [reflexivity|]. unfold reports. cbn [filter]. destruct (joins a b _); reflexivity. }
  assert (forall x y, joins a b (x, y) = true <-> (x = a /\ y = b) \/ (x = b /\ y = a)) as JJ by (intros x y; unfold joins; cbn [fst snd]; rewrite orb_true_iff, !andb_true_iff, !Nat.eqb_eq; tauto).
  destruct (corner4 f L) as (x & y & z & w & ER & ND).
  assert (corner t f 0 = x /\ corner t f 1 = y /\ corner t f 2 = z /\ corner t f 3 = w) as (E0 & E1 & E2 & E3) by (unfold corner; rewrite ER; cbn; auto).
  split; [|intros C; apply CG in C; split].
  - intros C. rewrite (filter_none kept); [reflexivity|]. intros [i j] I. unfold kept. cbn [fst snd]. apply andb_false_iff. right. apply not_true_iff_false. rewrite JJ. intros J. apply not_true_iff_false in C. apply C. apply CG.
    assert (forall k, k < 4 -> In (corner t f k) (nth f t [])) as IC. { intros k Hk. unfold corner. rewrite ER. apply nth_In. cbn. lia. }
    destruct (tet_ok i j I) as (Li & Lj & _). destruct J as [[<- <-]|[<- <-]]; split; apply IC; assumption.
  - intros (g & Ig & Cg & Ag). apply CG in Cg. rewrite (filter_none kept); [reflexivity|]. intros [i j] I. unfold kept. cbn [fst snd]. apply andb_false_iff.
    destruct (joins a b (corner t f i, corner t f j)) eqn:J; [left|right; reflexivity]. rewrite negb_false_iff. apply (skip3_spec f i j L I). exists g. apply JJ in J. split; [exact Ig|]. destruct J as [[-> ->]|[-> ->]]; tauto.
  - intros M. assert (filter kept tet_edges = filter (fun e => joins a b (corner t f (fst e), corner t f (snd e))) tet_edges) as ->.
    { apply filter_ext_in. intros [i j] I. unfold kept. cbn [fst snd]. destruct (joins a b (corner t f i, corner t f j)) eqn:J; [|apply andb_false_r]. rewrite andb_true_r, negb_true_iff. apply not_true_iff_false. intros K.
      apply (skip3_spec f i j L I) in K. destruct K as (g & Ig & C1 & C2 & Ag). apply JJ in J. assert (contains a b (nth g t []) = true) as Cg by (apply CG; destruct J as [[<- <-]|[<- <-]]; tauto). specialize (M g Ig Cg). lia. }
    unfold tet_edges. cbn [filter fst snd]. rewrite E0, E1, E2, E3. rewrite ER in C. cbn [In] in C.
    assert (x <> y /\ x <> z /\ x <> w /\ y <> z /\ y <> w /\ z <> w) as D. { inversion ND as [|? ? N1 N2]; subst. inversion N2 as [|? ? N3 N4]; subst. inversion N4 as [|? ? N5 N6]; subst. cbn in *. intuition congruence. }
    unfold joins. cbn [fst snd].
    destruct C as [[<- | [<- | [<- | [<- | []]]]] [<- | [<- | [<- | [<- | []]]]]]; try congruence;
      repeat match goal with |- context [?u =? ?v] => first [rewrite (Nat.eqb_refl u) | rewrite (proj2 (Nat.eqb_neq u v)) by (intuition congruence)] end; reflexivity.
Qed.
Lemma edges3_once a b : length t <= length mask -> a <> b -> exists es, get_edges3 order t around addr mask = Some es /\
  reports a b es = if existsb (fun f => contains a b (nth f t [])) sel then 1 else 0.
Proof.
  intros L NE. eexists. split.
  - unfold get_edges3. replace (length mask <? length t) with false by (symmetry; apply Nat.ltb_ge; exact L). reflexivity.
  - fold sel. rewrite reports_flat. rewrite (list_sum_perm _ _ (Permutation_map _ (Ho sel))).
    apply (once addr (fun f => contains a b (nth f t []))).
    + apply selected_nodup.
    + intros f g If Ig. apply Ha; [apply selected_spec in If|apply selected_spec in Ig]; tauto.
    + intros f If. apply (cell_reports a b f If NE).
    + intros f If. apply (cell_reports a b f If NE).
    + intros f If. apply (cell_reports a b f If NE).
Qed.
Lemma edges3_loops a : length t <= length mask -> exists es, get_edges3 order t around addr mask = Some es /\ reports a a es = 0.
Proof.
  intros L. eexists. split.
  - unfold get_edges3. replace (length mask <? length t) with false by (symmetry; apply Nat.ltb_ge; exact L). reflexivity.
  - fold sel. rewrite reports_flat. assert (forall l, (forall f, In f l -> f < length t) -> list_sum (map (fun f => reports a a (cell_edges t around addr sel f)) l) = 0) as G.
    { induction l as [|f l IH]; intros H; [reflexivity|]. cbn [map]. unfold list_sum in *. cbn [fold_right]. rewrite IH by (intros g Hg; apply H; right; exact Hg). rewrite Nat.add_0_r.
      destruct (corner4 f (H f (or_introl eq_refl))) as (x & y & z & w & ER & ND).
      assert (x <> y /\ x <> z /\ x <> w /\ y <> z /\ y <> w /\ z <> w) as D. { inversion ND as [|? ? N1 N2]; subst. inversion N2 as [|? ? N3 N4]; subst. inversion N4 as [|? ? N5 N6]; subst. cbn in *. intuition congruence. }
      assert (corner t f 0 = x /\ corner t f 1 = y /\ corner t f 2 = z /\ corner t f 3 = w) as (E0 & E1 & E2 & E3) by (unfold corner; rewrite ER; cbn; auto).
      assert (forall (k : bool) x y, x <> y -> reports a a (if k then [] else [(x, y)]) = 0) as RR.
      { intros [] u v NE; [reflexivity|]. unfold reports, joins. cbn. destruct (Nat.eqb_spec u a), (Nat.eqb_spec v a); cbn; try reflexivity; congruence. }
      unfold cell_edges, tet_edges. cbn [flat_map fst snd]. rewrite app_nil_r, !reports_app, !RR by (rewrite ?E0, ?E1, ?E2, ?E3; intuition congruence). reflexivity. }
    apply G. intros f If. apply (Permutation_in _ (Ho sel)) in If. apply selected_spec in If. tauto.
Qed.
End E3.
