(** The parallel run of generate_mesh as a choreography. *)
From Coq Require Import Reals List Arith Bool ZArith Lia Lra FunctionalExtensionality.
From Verif Require Import Model.Base Model.MPI Model.Process Model.SDF Model.Mesh Model.Forces Model.InitGrid Model.Interp Model.Blocker Model.Localize
  Model.Migration Model.WhereTo Model.Generator Model.Parallel Spec.Lockstep Proofs.Choreo Proofs.ProcessProofs Proofs.ExchangeProofs Proofs.ListAux Proofs.MeshAux Proofs.AggregateProofs.
Import ListNotations.
Local Open Scope nat_scope.

Notation Msg' := (Msg pmsg).
Notation prj := (project pmsg).
Notation got r ch := (flat_map (to pmsg r) ch).
Lemma follows_bind {X Y} (p : proc pmsg X) ops ms a : follows _ _ p ops ms a -> forall (f : X -> proc pmsg Y) ops' ms' b,
  follows _ _ (f a) ops' ms' b -> follows _ _ (pbind p f) (ops ++ ops') (ms ++ ms') b.
Proof. intros H. induction H; intros f ops' ms' b K; cbn [pbind app]; [exact K|constructor; apply IHfollows, K|constructor; apply IHfollows, K]. Qed.
(** all ranks below [size] follow the choreography and end their part with [v r] *)
Definition plays {X} (size : nat) (ch : list (msg pmsg)) (f : nat -> proc pmsg X) (v : nat -> X) : Prop :=
  forall r, r < size -> follows _ _ (f r) (prj ch r) (got r ch) (v r).
Lemma prj_app ch1 ch2 r : prj (ch1 ++ ch2) r = prj ch1 r ++ prj ch2 r.
Proof. apply flat_map_app. Qed.
Lemma plays_bind {X Y} size ch1 ch2 (f : nat -> proc pmsg X) v (g : nat -> X -> proc pmsg Y) w :
  plays size ch1 f v -> plays size ch2 (fun r => g r (v r)) w -> plays size (ch1 ++ ch2) (fun r => pbind (f r) (g r)) w.
Proof. intros H1 H2 r L. rewrite prj_app, flat_map_app. apply follows_bind with (a := v r); [apply H1, L|apply H2, L]. Qed.
Lemma plays_done {X} size (v : nat -> X) : plays size [] (fun r => Done (v r)) v.
Proof. intros r _. constructor. Qed.
Lemma plays_val {X} size ch (f : nat -> proc pmsg X) v w : (forall r, r < size -> v r = w r) -> plays size ch f v -> plays size ch f w.
Proof. intros E H r L. rewrite <- E by exact L. apply H, L. Qed.
Lemma plays_ext {X} size ch (f g : nat -> proc pmsg X) v : (forall r, r < size -> f r = g r) -> plays size ch f v -> plays size ch g v.
Proof. intros E H r L. rewrite <- E by exact L. apply H, L. Qed.
Definition inside (size : nat) (ch : list (msg pmsg)) : Prop := forall x, In x ch -> src _ x < size /\ dst _ x < size /\ src _ x <> dst _ x.
Lemma inside_app size ch1 ch2 : inside size ch1 -> inside size ch2 -> inside size (ch1 ++ ch2).
Proof. intros H1 H2 x Hx. apply in_app_iff in Hx. destruct Hx; auto. Qed.
Lemma inside_prj size ch r : inside size ch -> size <= r -> prj ch r = [] /\ got r ch = [].
Proof.
  intros H L. split; apply fm_nil; intros x Hx; destruct (H x Hx) as (A & B & _); unfold part, to.
  - replace (r =? src _ x) with false by (symmetry; apply Nat.eqb_neq; lia). replace (r =? dst _ x) with false by (symmetry; apply Nat.eqb_neq; lia). reflexivity.
  - replace (r =? dst _ x) with false by (symmetry; apply Nat.eqb_neq; lia). reflexivity.
Qed.

(** ---- sending to and receiving from a list of ranks ---- *)
Lemma follows_send_all u l f : follows _ _ (send_all u l f) (map (fun q => Send q u (f q)) l) [] tt.
Proof. induction l as [|q l IH]; [constructor|]. cbn. constructor. exact IH. Qed.
Lemma follows_recv_all u l (f : nat -> pmsg) : follows _ _ (recv_all u l) (map (fun q => Recv q u) l) (map (fun q => (q, f q)) l) (map f l).
Proof.
  induction l as [|q l IH]; [constructor|]. cbn [recv_all map]. constructor.
  replace (map (fun q => Recv q u) l) with (map (fun q => @Recv pmsg q u) l ++ []) by apply app_nil_r. replace (map (fun q => (q, f q)) l) with (map (fun q => (q, f q)) l ++ []) by apply app_nil_r.
  apply follows_bind with (a := map f l); [exact IH|constructor].
Qed.
Lemma follows_last {X Y} (p : proc pmsg X) ops ms a (f : X -> proc pmsg Y) b : follows _ _ p ops ms a -> f a = Done b -> follows _ _ (pbind p f) ops ms b.
Proof. intros H E. rewrite <- (app_nil_r ops), <- (app_nil_r ms). apply follows_bind with (a := a); [exact H|]. rewrite E. constructor. Qed.
(** two messages per rank *)
Lemma follows_recv_pairs l (f g : nat -> pmsg) : follows _ _ (recv_pairs l) (flat_map (fun q => [Recv q 12; Recv q 13]) l) (flat_map (fun q => [(q, f q); (q, g q)]) l) (flat_map (fun q => [f q; g q]) l).
Proof.
  induction l as [|q l IH]; [constructor|]. cbn [recv_pairs flat_map app]. constructor. constructor.
  apply follows_last with (a := flat_map (fun q => [f q; g q]) l); [exact IH|reflexivity].
Qed.
Definition star_out (u root : nat) (l : list nat) (f : nat -> pmsg) : list (msg pmsg) := map (fun q => Msg' root q u (f q)) l.
Definition star_in (u root : nat) (l : list nat) (f : nat -> pmsg) : list (msg pmsg) := map (fun q => Msg' q root u (f q)) l.
Lemma fm_single {A} (g : nat -> list A) l r : NoDup l -> (forall q, In q l -> q <> r -> g q = []) -> flat_map g l = if existsb (Nat.eqb r) l then g r else [].
Proof.
  induction l as [|q l IH]; intros ND H; [reflexivity|]. inversion ND as [|? ? NI ND']; subst. cbn [flat_map existsb]. destruct (Nat.eqb_spec r q) as [<- |N].
  - cbn [orb]. rewrite fm_nil; [apply app_nil_r|]. intros x Hx. apply H; [right; exact Hx|]. intros ->. contradiction.
  - cbn [orb]. rewrite H by (auto; left; reflexivity). cbn [app]. apply IH; [exact ND'|]. intros x Hx. apply H. right. exact Hx.
Qed.
Lemma existsb_eqb r l : existsb (Nat.eqb r) l = true <-> In r l.
Proof. rewrite existsb_exists. split; [intros (x & Hx & E); apply Nat.eqb_eq in E; subst; exact Hx|intros H; exists r; split; [exact H|apply Nat.eqb_refl]]. Qed.
Lemma star_out_root u root l f : ~ In root l -> prj (star_out u root l f) root = map (fun q => Send q u (f q)) l /\ got root (star_out u root l f) = [].
Proof.
  intros N. unfold project, star_out. rewrite !fm_map. split.
  - rewrite <- (flat_map_concat_map (fun q => [Send q u (f q)])) || idtac. clear N. induction l as [|q l IH]; [reflexivity|]. cbn [flat_map map]. rewrite IH. unfold part. cbn. rewrite Nat.eqb_refl. reflexivity.
  - apply fm_nil. intros q Hq. unfold to. cbn. destruct (Nat.eqb_spec root q) as [-> |]; [contradiction|reflexivity].
Qed.
Lemma star_out_leaf u root l f r : NoDup l -> In r l -> r <> root -> prj (star_out u root l f) r = [Recv root u] /\ got r (star_out u root l f) = [(root, f r)].
Proof.
  intros ND I N. apply existsb_eqb in I. apply Nat.eqb_neq in N as N'. unfold project, star_out. rewrite !fm_map. split; rewrite (fm_single _ l r ND), I.
  - unfold part. cbn. rewrite N', Nat.eqb_refl. reflexivity.
  - intros q _ Nq. unfold part. cbn. rewrite N'. destruct (Nat.eqb_spec r q); [congruence|reflexivity].
  - unfold to. cbn. rewrite Nat.eqb_refl. reflexivity.
  - intros q _ Nq. unfold to. cbn. destruct (Nat.eqb_spec r q); [congruence|reflexivity].
Qed.
Lemma star_in_root u root l f : ~ In root l -> prj (star_in u root l f) root = map (fun q => Recv q u) l /\ got root (star_in u root l f) = map (fun q => (q, f q)) l.
Proof.
  intros N. unfold project, star_in. rewrite !fm_map. split.
  - induction l as [|q l IH]; [reflexivity|]. cbn [flat_map map]. rewrite IH by (intros K; apply N; right; exact K). unfold part. cbn.
    destruct (Nat.eqb_spec root q) as [-> |]; [destruct N; left; reflexivity|]. rewrite Nat.eqb_refl. reflexivity.
  - clear N. induction l as [|q l IH]; [reflexivity|]. cbn [flat_map map]. rewrite IH. unfold to. cbn. rewrite Nat.eqb_refl. reflexivity.
Qed.
Lemma star_in_leaf u root l f r : NoDup l -> In r l -> r <> root -> prj (star_in u root l f) r = [Send root u (f r)] /\ got r (star_in u root l f) = [].
Proof.
  intros ND I N. apply existsb_eqb in I. apply Nat.eqb_neq in N as N'. unfold project, star_in. rewrite !fm_map. split.
  - rewrite (fm_single _ l r ND), I; [|intros q _ Nq; unfold part; cbn; rewrite N'; destruct (Nat.eqb_spec r q); [congruence|reflexivity]].
    unfold part. cbn. rewrite Nat.eqb_refl. reflexivity.
  - apply fm_nil. intros q _. unfold to. cbn. rewrite N'. reflexivity.
Qed.
Lemma star_out_inside u size root l f : root < size -> (forall q, In q l -> q < size /\ q <> root) -> inside size (star_out u root l f).
Proof. intros L H x Hx. apply in_map_iff in Hx. destruct Hx as (q & <- & Hq). destruct (H q Hq). cbn. auto. Qed.
Lemma star_in_inside u size root l f : root < size -> (forall q, In q l -> q < size /\ q <> root) -> inside size (star_in u root l f).
Proof. intros L H x Hx. apply in_map_iff in Hx. destruct Hx as (q & <- & Hq). destruct (H q Hq). cbn. auto. Qed.

Lemma follows_done1 {X} (p : proc pmsg X) ops ms a : follows _ _ p ops ms a -> forall Y (b : Y), follows _ _ (pbind p (fun _ => Done b)) ops ms b.
Proof. intros H Y b. rewrite <- (app_nil_r ops), <- (app_nil_r ms). apply follows_bind with (a := a); [exact H|constructor]. Qed.

Section S.
Variable size : nat.
Hypothesis S2 : 2 <= size.
Notation rest := (seq 1 (size - 1)).
Lemma rest_in r : In r rest <-> 0 < r < size.
Proof. rewrite in_seq. lia. Qed.
Lemma rest_nd : NoDup rest. Proof. apply seq_NoDup. Qed.
Lemma others_in root r : In r (others size root) <-> r < size /\ r <> root.
Proof. unfold others. rewrite filter_In, in_seq, negb_true_iff, Nat.eqb_neq. lia. Qed.
Lemma others_nd root : NoDup (others size root). Proof. apply NoDup_filter, seq_NoDup. Qed.

(** localize_sizing_function *)
Lemma plays_sizing lfh : plays size (star_out 11 0 rest lfh) (fun r => localize_sizing_p size r lfh) lfh.
Proof.
  intros r L. unfold localize_sizing_p. destruct (Nat.eqb_spec r 0) as [-> |N].
  - destruct (star_out_root 11 0 rest lfh) as [-> ->]; [rewrite rest_in; lia|]. apply (follows_done1 _ _ _ _ (follows_send_all _ _ _)).
  - destruct (star_out_leaf 11 0 rest lfh r rest_nd) as [-> ->]; [apply rest_in; lia|exact N|]. constructor. constructor.
Qed.
(** bcast *)
Lemma plays_bcast root (m : nat -> pmsg) : root < size -> plays size (star_out coll root (others size root) (fun _ => m root)) (fun r => bcast_p size r root (m r)) (fun _ => m root).
Proof.
  intros LR r L. unfold bcast_p. destruct (Nat.eqb_spec r root) as [-> |N].
  - destruct (star_out_root coll root (others size root) (fun _ => m root)) as [-> ->]; [rewrite others_in; lia|]. apply (follows_done1 _ _ _ _ (follows_send_all _ _ _)).
  - destruct (star_out_leaf coll root (others size root) (fun _ => m root) r (others_nd root)) as [-> ->]; [apply others_in; auto|exact N|]. constructor. constructor.
Qed.
(** allreduce *)
Definition min_all (x : nat -> R) : R := fold_left Rmin (map x rest) (x 0).
Lemma plays_allreduce (x : nat -> R) : plays size (star_in coll 0 rest (fun q => MNum (x q)) ++ star_out coll 0 rest (fun _ => MNum (min_all x)))
  (fun r => allreduce_min size r (x r)) (fun _ => min_all x).
Proof.
  intros r L. rewrite prj_app, flat_map_app. unfold allreduce_min. destruct (Nat.eqb_spec r 0) as [-> |N].
  - destruct (star_in_root coll 0 rest (fun q => MNum (x q))) as [-> ->]; [rewrite rest_in; lia|].
    destruct (star_out_root coll 0 rest (fun _ => MNum (min_all x))) as [-> ->]; [rewrite rest_in; lia|].
    apply follows_bind with (a := map (fun q => MNum (x q)) rest); [apply (follows_recv_all coll rest (fun q => MNum (x q)))|]. cbv zeta. rewrite map_map.
    change (fold_left Rmin (map (fun q => num_in (MNum (x q))) rest) (x 0)) with (min_all x). apply (follows_done1 _ _ _ _ (follows_send_all _ _ _)).
  - destruct (star_in_leaf coll 0 rest (fun q => MNum (x q)) r rest_nd) as [-> ->]; [apply rest_in; lia|exact N|].
    destruct (star_out_leaf coll 0 rest (fun _ => MNum (min_all x)) r rest_nd) as [-> ->]; [apply rest_in; lia|exact N|].
    cbn [app]. constructor. constructor. exact (f_done _ _ (min_all x)).
Qed.
(** extents *)
Definition ext_chor (e : nat -> list R) (roots : list nat) : list (msg pmsg) := flat_map (fun root => star_out coll root (others size root) (fun _ => MPts [e root])) roots.
Lemma plays_bcasts (e : nat -> list R) roots : (forall x, In x roots -> x < size) -> plays size (ext_chor e roots) (fun r => bcasts_p size r roots (e r)) (fun _ => map e roots).
Proof.
  induction roots as [|root roots IH]; intros H; [apply (plays_done size (fun _ => []))|]. cbn [ext_chor flat_map bcasts_p map].
  apply (plays_bind size _ _ (fun r => bcast_p size r root (MPts [e r])) (fun _ => MPts [e root])
    (fun r m => pbind (bcasts_p size r roots (e r)) (fun l => Done (nth 0 (pts_in m) [] :: l)))).
  - exact (plays_bcast root (fun r => MPts [e r]) (H root (or_introl eq_refl))).
  - cbn [pts_in nth]. rewrite <- (app_nil_r (flat_map _ roots)). apply (plays_bind size _ _ (fun r => bcasts_p size r roots (e r)) (fun _ => map e roots)
      (fun r l => Done (e root :: l))); [apply IH; intros x Hx; apply H; right; exact Hx|]. apply (plays_done size (fun _ => e root :: map e roots)).
Qed.

(** ---- the exchange of one iteration ---- *)
Definition ex_msg (x : msg (list (list R))) : msg pmsg := Msg' (src _ x) (dst _ x) (mtag _ x) (MPts (body _ x)).
Definition ex_chor (ex : nat -> exports) : list (msg pmsg) := map ex_msg (chor size ex).
Definition mop (x : op (list (list R))) : op pmsg := match x with Send q u m => Send q u (MPts m) | Recv q u => Recv q u end.
Lemma prj_ex ch r : prj (map ex_msg ch) r = map mop (project _ ch r).
Proof.
  unfold project. induction ch as [|x ch IH]; [reflexivity|]. cbn [map flat_map]. rewrite IH, map_app. f_equal. unfold part, ex_msg. cbn [src dst mtag body].
  destruct (r =? _); [reflexivity|]. destruct (r =? _); reflexivity.
Qed.
Lemma got_ex ch r : got r (map ex_msg ch) = map (fun e => (fst e, MPts (snd e))) (flat_map (to _ r) ch).
Proof.
  induction ch as [|x ch IH]; [reflexivity|]. cbn [map flat_map]. rewrite IH, map_app. f_equal. unfold to, ex_msg. cbn [src dst body]. destruct (r =? _); reflexivity.
Qed.
Definition ghosts (ex : nat -> exports) (r : nat) : list (list R) :=
  (if r + 1 <? size then below (ex (r + 1)) else []) ++ (if r =? 0 then [] else above (ex (r - 1))).
Definition full_table (r : nat) (e : exports) : Prop := (0 < r -> nsb e <> 0) /\ (r + 1 < size -> nsa e <> 0).
Lemma plays_exchange ex : (forall r, r < size -> full_table r (ex r)) -> plays size (ex_chor ex) (fun r => exchange_p size r (ex r)) (ghosts ex).
Proof.
  intros H r L. destruct (H r L) as [HB HA]. unfold ex_chor. rewrite prj_ex, got_ex, project_chor, to_chor by assumption. unfold exchange, exchange_p, ghosts.
  assert ((nsb (ex r) =? 0) && (nsa (ex r) =? 0) = false) as ->.
  { apply andb_false_iff. destruct r as [|r]; [right|left]; apply Nat.eqb_neq; [apply HA; lia|apply HB; lia]. }
  fold (below (ex r)) (above (ex r)).
  assert (negb (nsb (ex r) =? 0) && negb (r =? 0) = negb (r =? 0)) as ->.
  { destruct (Nat.eqb_spec r 0); [apply andb_false_r|]. apply Nat.neq_0_lt_0 in n. apply HB in n. apply Nat.eqb_neq in n. rewrite n. reflexivity. }
  assert (negb (nsa (ex r) =? 0) && negb (r =? size - 1) = (r + 1 <? size)) as ->.
  { destruct (Nat.ltb_spec (r + 1) size); [|destruct (Nat.eqb_spec r (size - 1)); [apply andb_false_r|lia]].
    destruct (Nat.eqb_spec r (size - 1)); [lia|]. specialize (HA H0). apply Nat.eqb_neq in HA. rewrite HA. reflexivity. }
  assert (negb (r =? size - 1) = (r + 1 <? size)) as ->.
  { destruct (Nat.ltb_spec (r + 1) size), (Nat.eqb_spec r (size - 1)); try lia; reflexivity. }
  destruct (Nat.eqb_spec r 0) as [E|N], (Nat.ltb_spec (r + 1) size) as [L2|L2]; try lia; cbn [negb app map mop fst snd]; repeat constructor.
Qed.
Lemma ex_inside ex : inside size (ex_chor ex).
Proof.
  intros x Hx. apply in_map_iff in Hx. destruct Hx as (y & <- & Hy). cbn. unfold chor in Hy. apply in_app_iff in Hy.
  destruct Hy as [Hy|Hy]; apply in_map_iff in Hy; destruct Hy as (k & <- & Hk); cbn [src dst].
  - apply in_seq in Hk. lia.
  - apply in_rev, in_seq in Hk. lia.
Qed.

(** ---- aggregate ---- *)
Section Agg.
Variable mesh : nat -> list (list R) * list (list nat).
Definition lens_of (rank n : nat) : list nat := map (fun i => if (i =? rank)%nat then n else 0%nat) (seq 0 size).
Definition pair_chor : list (msg pmsg) := flat_map (fun r => [Msg' r 0 12 (MPts (fst (mesh r))); Msg' r 0 13 (MCells (snd (mesh r)))]) rest.
Definition agg_chor_p : list (msg pmsg) :=
  star_in coll 0 rest (fun q => MLens (lens_of q (length (fst (mesh q))))) ++ star_in coll 0 rest (fun q => MLens (lens_of q (length (snd (mesh q))))) ++ pair_chor.
(** the union of all ranks' meshes, cells renumbered *)
Definition union_mesh : list (list R) * list (list nat) := (flat_map (fun i => fst (mesh i)) (seq 0 size), flat_map (shifted mesh) (seq 0 size)).
Lemma pair_root : prj pair_chor 0 = flat_map (fun q => [Recv q 12; Recv q 13]) rest /\
  got 0 pair_chor = flat_map (fun r => [(r, MPts (fst (mesh r))); (r, MCells (snd (mesh r)))]) rest.
Proof.
  unfold pair_chor, project. rewrite !fm_fm. split.
  - apply fm_ext. intros r Hr; apply rest_in in Hr; unfold part; cbn. destruct r; [lia|]. reflexivity.
  - apply fm_ext. reflexivity.
Qed.
Lemma pair_leaf r : 0 < r < size -> prj pair_chor r = [Send 0 12 (MPts (fst (mesh r))); Send 0 13 (MCells (snd (mesh r)))] /\ got r pair_chor = [].
Proof.
  intros L. unfold pair_chor, project. rewrite !fm_fm. split.
  - rewrite (fm_single _ rest r rest_nd).
    + assert (existsb (Nat.eqb r) rest = true) as -> by (apply existsb_eqb, rest_in; lia). unfold part. cbn. rewrite Nat.eqb_refl. reflexivity.
    + intros q _ N. unfold part. cbn. destruct (Nat.eqb_spec r q); [congruence|]. destruct r; [lia|reflexivity].
  - apply fm_nil. intros q _. unfold to. cbn. destruct r; [lia|reflexivity].
Qed.
Lemma plays_aggregate : plays size agg_chor_p (fun r => aggregate_p size r (mesh r)) (fun r => if r =? 0 then union_mesh else ([], [])).
Proof.
  intros r L. unfold agg_chor_p. rewrite !prj_app, !flat_map_app. unfold aggregate_p. destruct (Nat.eqb_spec r 0) as [-> |N].
  - destruct (star_in_root coll 0 rest (fun q => MLens (lens_of q (length (fst (mesh q)))))) as [-> ->]; [rewrite rest_in; lia|].
    destruct (star_in_root coll 0 rest (fun q => MLens (lens_of q (length (snd (mesh q)))))) as [-> ->]; [rewrite rest_in; lia|]. destruct pair_root as [-> ->].
    eapply follows_bind; [apply (follows_recv_all coll rest (fun q => MLens (lens_of q (length (fst (mesh q))))))|].
    eapply follows_bind; [apply (follows_recv_all coll rest (fun q => MLens (lens_of q (length (snd (mesh q))))))|].
    eapply follows_last.
    { apply (follows_recv_pairs rest (fun r => MPts (fst (mesh r))) (fun r => MCells (snd (mesh r)))). }
    cbv zeta. f_equal.
    unfold union_mesh. rewrite <- (aggregated_spec size mesh ltac:(lia)). unfold aggregated. rewrite agg_log. f_equal.
    + f_equal. unfold reduce_sum. apply map_ext_in. intros i Hi. rewrite map_map. cbn [lens_in].
      assert (forall r, nth i (lens_of r (length (fst (mesh r)))) 0 = if r =? i then plen mesh r else 0) as K.
      { intros r. unfold lens_of. apply in_seq in Hi. rewrite (nth_map' _ _ _ _ 0) by (rewrite seq_length; lia). rewrite seq_nth by lia. cbn [Nat.add]. rewrite Nat.eqb_sym. reflexivity. }
      assert (seq 0 size = 0 :: rest) as Q by (replace size with (S (size - 1)) at 1 by lia; reflexivity).
      apply f_equal.
      transitivity (map (fun x => nth i (lens_of x (length (fst (mesh x)))) 0) (0 :: rest)); [reflexivity|]. rewrite <- Q. apply map_ext. exact K.
    + rewrite !flat_map_concat_map, !concat_map, !map_map. reflexivity.
  - destruct (star_in_leaf coll 0 rest (fun q => MLens (lens_of q (length (fst (mesh q))))) r rest_nd) as [-> ->]; [apply rest_in; lia|exact N|].
    destruct (star_in_leaf coll 0 rest (fun q => MLens (lens_of q (length (snd (mesh q))))) r rest_nd) as [-> ->]; [apply rest_in; lia|exact N|].
    destruct (pair_leaf r ltac:(lia)) as [-> ->]. cbn [app]. repeat constructor.
Qed.
End Agg.

Lemma agg_inside m : inside size (agg_chor_p m).
Proof.
  unfold agg_chor_p. repeat apply inside_app.
  - apply star_in_inside; [lia|]. intros q Hq. apply rest_in in Hq. lia.
  - apply star_in_inside; [lia|]. intros q Hq. apply rest_in in Hq. lia.
  - intros x Hx. unfold pair_chor in Hx. apply in_flat_map in Hx. destruct Hx as (q & Hq & Hx). apply rest_in in Hq.
    destruct Hx as [<- |[<- |[]]]; cbn; lia.
Qed.

(** ---- the iterations ---- *)
Section Loop.
Variable Q : par_backend.
Variables (P : nat -> problem) (ext : list (list R)) (K : nat).
Hypothesis same_iter : forall r, g_max_iter (P r) = INR K.
Notation tabs := (exported Q size P ext).
Definition results (m : nat -> list pt * list row) (r : nat) : out :=
  if r =? 0 then Some (match finish (q_serial Q 0) (P 0) (fst (joined size m)) (snd (joined size m)) with Ok x => Ok (Some x) | Err e => Err e end) else Some (Ok None).
Definition it_chor (c : nat) (p : nat -> list pt) : list (msg pmsg) :=
  if (nsb (tabs c p 0) =? 0) && (nsa (tabs c p 0) =? 0) then [] else ex_chor (tabs c p).
Definition agree (c : nat) (p : nat -> list pt) : Prop := all_export Q size P ext c p \/ all_idle Q size P ext c p.
Fixpoint loop_chor (n c : nat) (p : nat -> list pt) (m : nat -> list pt * list row) : list (msg pmsg) :=
  match n with
  | O => []
  | 1 => it_chor c p ++ agg_chor_p m
  | S k => it_chor c p ++ loop_chor k (S c) (moved Q size P ext c p) m
  end.
Fixpoint good_run (n c : nat) (p : nat -> list pt) (m : nat -> list pt * list row) : Prop :=
  match n with
  | O => False
  | 1 => agree c p /\ forall r, r < size -> run_fix (q_serial Q r) (fst (local_mesh Q size P ext c p r)) (snd (local_mesh Q size P ext c p r)) = Ok (m r)
  | S k => agree c p /\ rank0_goes_on Q size P ext c p /\ good_run k (S c) (moved Q size P ext c p) m
  end.
Lemma exported_eq c p : agree c p -> forall r, r < size -> table Q size (P r) ext r c (p r) = Some (tabs c p r).
Proof. intros [H|H] r L; destruct (H r L) as (e & E & F); unfold exported; rewrite E; reflexivity. Qed.
Lemma plays_exchanged c p : agree c p -> plays size (it_chor c p) (fun r => exchange_p size r (tabs c p r)) (incoming Q size P ext c p).
Proof.
  intros [H|H].
  - assert (forall r, r < size -> full_table r (tabs c p r)) as FT. { intros r L. destruct (H r L) as (e & E & F). unfold exported. rewrite E. exact F. }
    unfold it_chor. destruct (FT 0 ltac:(lia)) as [_ A]. specialize (A ltac:(lia)). apply Nat.eqb_neq in A. rewrite A, andb_false_r.
    apply plays_val with (v := ghosts (tabs c p)); [reflexivity|]. apply plays_exchange, FT.
  - assert (forall r, r < size -> nsb (tabs c p r) = 0 /\ nsa (tabs c p r) = 0) as FT. { intros r L. destruct (H r L) as (e & E & F). unfold exported. rewrite E. exact F. }
    unfold it_chor. destruct (FT 0 ltac:(lia)) as [A1 A2]. rewrite A1, A2. cbn [Nat.eqb andb].
    apply plays_ext with (f := fun _ => Done []). { intros r L. unfold exchange_p. destruct (FT r L) as [-> ->]. reflexivity. }
    apply plays_val with (v := fun _ => []); [|apply (plays_done size (fun _ => []))].
    intros r L. unfold incoming, to_below, to_above. destruct (Nat.ltb_spec (r + 1) size) as [L2|L2].
    + destruct (FT (r + 1) L2) as [-> _]. destruct (Nat.eqb_spec r 0); [reflexivity|]. destruct (FT (r - 1) ltac:(lia)) as [_ ->]. reflexivity.
    + destruct (Nat.eqb_spec r 0); [reflexivity|]. destruct (FT (r - 1) ltac:(lia)) as [_ ->]. reflexivity.
Qed.
Lemma plays_finish p t m : (forall r, r < size -> run_fix (q_serial Q r) (p r) (t r) = Ok (m r)) ->
  plays size (agg_chor_p m) (fun r => par_finish Q size (P r) r (p r) (t r)) (results m).
Proof.
  intros H. rewrite <- (app_nil_r (agg_chor_p m)).
  apply plays_ext with (f := fun r => pbind (aggregate_p size r (m r)) (fun g =>
      if r =? 0 then Done (Some (match finish (q_serial Q 0) (P r) (fst g) (snd g) with Ok m => Ok (Some m) | Err e => Err e end)) else Done (Some (Ok None)))).
  { intros r L. unfold par_finish. rewrite H by exact L. reflexivity. }
  apply plays_bind with (v := fun r => if r =? 0 then union_mesh m else ([], [])); [apply plays_aggregate|].
  apply plays_ext with (f := fun r => Done (results m r)); [|apply plays_done]. intros r L. unfold results. destruct (Nat.eqb_spec r 0) as [-> |N]; reflexivity.
Qed.
Lemma plays_loop n : forall c p m fuel, n <= fuel -> c + n = K -> good_run n c p m -> plays size (loop_chor n c p m) (fun r => par_loop Q size (P r) ext r fuel c (p r)) (results m).
Proof.
  induction n as [|n IH]; intros c p m fuel LF EK G; [destruct G|]. destruct fuel as [|fuel]; [lia|].
  assert (agree c p) as AE by (destruct n; apply G). pose proof (plays_exchanged c p AE) as PE.
  destruct n as [|n].
  - cbn [loop_chor]. destruct G as [_ G]. set (lm := local_mesh Q size P ext c p) in *.
    apply plays_ext with (f := fun r => pbind (exchange_p size r (tabs c p r)) (fun recv =>
        let '(p3, t4) := with_ghosts Q (P r) ext r c (p r) recv in par_finish Q size (P r) r p3 t4)).
    { intros r L. cbn [par_loop]. rewrite (exported_eq c p AE r L). f_equal. apply FunctionalExtensionality.functional_extensionality. intros recv.
      destruct (with_ghosts _ _ _ _ _ _ _) as [p3 t4]. rewrite same_iter. assert (Reqb (INR c) (INR K - 1) = true) as ->; [|reflexivity].
      apply Reqb_true. rewrite <- EK, plus_INR. cbn. lra. }
    apply plays_bind with (v := incoming Q size P ext c p); [exact PE|].
    apply plays_ext with (f := fun r => par_finish Q size (P r) r (fst (lm r)) (snd (lm r))); [|apply plays_finish; exact G].
    intros r L. unfold lm, local_mesh. destruct (with_ghosts _ _ _ _ _ _ _) as [p3 t4]. reflexivity.
  - destruct G as (_ & [F0 MV] & G). change (loop_chor (S (S n)) c p m) with (it_chor c p ++ loop_chor (S n) (S c) (moved Q size P ext c p) m).
    apply plays_ext with (f := fun r => pbind (exchange_p size r (tabs c p r)) (fun recv =>
          let '(p3, t4) := with_ghosts Q (P r) ext r c (p r) recv in
            let F := compute_forces (g_dim (P r)) (g_fh (P r)) (L0mult (g_dim (P r))) p3 t4 in
            let p' := delete_ghosts (next_points (P r) p3 t4) (recv_count (tabs c p r) recv) in
            if (r =? 0)%nat then
              match F with
              | [] => Done (Some (Err ValueError))
              | _ => if Rltb (max_move (g_delta_t (P r)) F) (1000 * g_h0 (P r)) then par_loop Q size (P r) ext r fuel (S c) p' else Done (Some (Err AssertionError))
              end
            else par_loop Q size (P r) ext r fuel (S c) p')).
    { intros r L. cbn [par_loop]. rewrite (exported_eq c p AE r L). f_equal. apply FunctionalExtensionality.functional_extensionality. intros recv.
      destruct (with_ghosts _ _ _ _ _ _ _) as [p3 t4]. rewrite same_iter. assert (Reqb (INR c) (INR K - 1) = false) as ->; [|reflexivity].
      apply Reqb_false. rewrite <- EK, plus_INR, !S_INR. pose proof (pos_INR n). lra. }
    apply plays_bind with (v := incoming Q size P ext c p); [exact PE|].
    apply plays_ext with (f := fun r => par_loop Q size (P r) ext r fuel (S c) (moved Q size P ext c p r)); [|apply IH; [lia|lia|exact G]].
    intros r L. change (recv_count (tabs c p r) (incoming Q size P ext c p r)) with (lost Q size P ext c p r). unfold moved. unfold local_mesh in *. destruct (with_ghosts Q (P r) ext r c (p r) (incoming Q size P ext c p r)) as [p3 t4] eqn:W. cbv zeta. cbn [fst snd].
    destruct (Nat.eqb_spec r 0) as [-> |N]; [|reflexivity]. rewrite W in F0, MV. cbn [fst snd] in F0, MV. destruct (compute_forces _ _ _ p3 t4) as [|v F] eqn:CF; [congruence|].
    apply Rltb_true in MV. rewrite MV. reflexivity.
Qed.
Lemma it_inside c p : inside size (it_chor c p).
Proof. unfold it_chor. destruct (_ && _); [intros x []|apply ex_inside]. Qed.
Lemma loop_inside n : forall c p m, inside size (loop_chor n c p m).
Proof.
  induction n as [|n IH]; intros c p m; [intros x []|]. destruct n as [|n]; [apply inside_app; [apply it_inside|apply agg_inside]|].
  change (loop_chor (S (S n)) c p m) with (it_chor c p ++ loop_chor (S n) (S c) (moved Q size P ext c p) m). apply inside_app; [apply it_inside|apply IH].
Qed.
End Loop.

Lemma good_run_after Q P ext K m p : 0 < K -> (forall j, j < K -> agree Q P ext j (after Q size P ext j p)) ->
  (forall j, S j < K -> rank0_goes_on Q size P ext j (after Q size P ext j p)) ->
  (forall r, r < size -> let l := local_mesh Q size P ext (K - 1) (after Q size P ext (K - 1) p) r in run_fix (q_serial Q r) (fst l) (snd l) = Ok (m r)) ->
  good_run Q P ext K 0 p m.
Proof.
  intros K0 HE HG HF. change p with (after Q size P ext 0 p). assert (forall n c, 0 < n -> c + n = K -> good_run Q P ext n c (after Q size P ext c p) m) as G; [|apply G; lia].
  induction n as [|n IH]; intros c N E; [lia|]. destruct n as [|n].
  - cbn [good_run]. split; [apply HE; lia|]. replace c with (K - 1) by lia. exact HF.
  - change (agree Q P ext c (after Q size P ext c p) /\ rank0_goes_on Q size P ext c (after Q size P ext c p) /\ good_run Q P ext (S n) (S c) (after Q size P ext (S c) p) m).
    split; [apply HE; lia|]. split; [apply HG; lia|]. apply IH; lia.
Qed.
Lemma ex_len ex : length (ex_chor ex) = 2 * (size - 1).
Proof. unfold ex_chor, chor, down, up. rewrite map_length, app_length, !map_length, rev_length, seq_length. lia. Qed.
Lemma agg_len_p m : length (agg_chor_p m) = 4 * (size - 1).
Proof.
  unfold agg_chor_p, star_in, pair_chor. rewrite !app_length, !map_length, !seq_length, flat_map_concat_map.
  assert (forall l, length (concat (map (fun r => [Msg' r 0 12 (MPts (fst (m r))); Msg' r 0 13 (MCells (snd (m r)))]) l)) = 2 * length l) as G.
  { induction l as [|a l IH]; [reflexivity|]. cbn [map concat]. rewrite app_length, IH. cbn [length]. lia. }
  rewrite G, seq_length. lia.
Qed.
Lemma it_len Q P ext c p : length (it_chor Q P ext c p) <= 2 * (size - 1).
Proof. unfold it_chor. destruct (_ && _); [cbn; lia|rewrite ex_len; lia]. Qed.
Lemma loop_len Q P ext n : forall c p m, 0 < n -> length (loop_chor Q P ext n c p m) <= (2 * n + 4) * (size - 1).
Proof.
  induction n as [|n IH]; intros c p m L; [lia|]. pose proof (it_len Q P ext c p) as IL. destruct n as [|n]; [cbn [loop_chor]; rewrite app_length, agg_len_p; lia|].
  change (loop_chor Q P ext (S (S n)) c p m) with (it_chor Q P ext c p ++ loop_chor Q P ext (S n) (S c) (moved Q size P ext c p) m).
  rewrite app_length. specialize (IH (S c) (moved Q size P ext c p) m ltac:(lia)). lia.
Qed.

(** ---- starting points generated by the ranks ---- *)
Lemma star_len_out u root l f : length (star_out u root l f) = length l. Proof. apply map_length. Qed.
Lemma star_len_in u root l f : length (star_in u root l f) = length l. Proof. apply map_length. Qed.
Lemma others_len root : root < size -> length (others size root) = size - 1.
Proof.
  intros L. unfold others. assert (forall a n, length (filter (fun r => negb (r =? root)) (seq a n)) = n - (if (a <=? root) && (root <? a + n) then 1 else 0)) as G.
  { intros a n. revert a. induction n as [|n IH]; intros a; [reflexivity|]. cbn [seq filter]. destruct (Nat.eqb_spec a root) as [-> |N]; cbn [negb length]; rewrite IH.
    - replace (S root <=? root) with false by (symmetry; apply Nat.leb_gt; lia). rewrite Nat.leb_refl. replace (root <? root + S n) with true by (symmetry; apply Nat.ltb_lt; lia). cbn. lia.
    - replace (S a + n) with (a + S n) by lia. destruct (Nat.leb_spec a root), (Nat.leb_spec (S a) root), (Nat.ltb_spec root (a + S n)); cbn; lia. }
  rewrite G. cbn [Nat.leb andb Nat.add]. apply Nat.ltb_lt in L. rewrite L. reflexivity.
Qed.
Lemma ext_len e roots : (forall x, In x roots -> x < size) -> length (ext_chor e roots) = length roots * (size - 1).
Proof.
  induction roots as [|x l IH]; intros H; [reflexivity|]. cbn [ext_chor flat_map]. rewrite app_length, star_len_out, others_len by (apply H; left; reflexivity).
  unfold ext_chor in IH. rewrite IH by (intros y Hy; apply H; right; exact Hy). cbn [length]. lia.
Qed.
Lemma ext_inside e roots : (forall x, In x roots -> x < size) -> inside size (ext_chor e roots).
Proof.
  intros H x Hx. unfold ext_chor in Hx. apply in_flat_map in Hx. destruct Hx as (root & Hr & Hx). revert x Hx. apply star_out_inside; [apply H, Hr|].
  intros q Hq. apply others_in in Hq. exact Hq.
Qed.
Section Start.
Variable Q : par_backend.
Variable axis : nat.
Variables (s : size_arg) (o : gen_opts).
Variables (dim : nat) (bbox : list R) (fd : pt -> R) (h0 geps : R).
Definition lfh (r : nat) : pmsg := local_grid_sizes (size_fh s) (pairs_of bbox) size axis h0 r.
Definition rank_fh (r : nat) : list R -> R := if lsf s then sizing_in (lfh r) else size_fh s.
Definition rank_grid (r : nat) : list pt := own_grid size axis bbox fd h0 geps r.
Definition common_r0m : R := min_all (fun r => r0m_of o h0 (map (rank_fh r) (rank_grid r))).
Definition rank_points (r : nat) : list pt := decimate Q r dim (rank_fh r) common_r0m (rank_grid r).
Definition rank_ext : list (list R) := map (fun r => own_extent dim axis h0 (rank_points r)) (seq 0 size).
Definition gen_chor : list (msg pmsg) := (if lsf s then star_out 11 0 rest lfh else []) ++
  (star_in coll 0 rest (fun q => MNum (r0m_of o h0 (map (rank_fh q) (rank_grid q)))) ++ star_out coll 0 rest (fun _ => MNum common_r0m)) ++
  ext_chor (fun r => own_extent dim axis h0 (rank_points r)) (seq 0 size).
Lemma gen_inside : inside size gen_chor.
Proof.
  assert (forall q, In q rest -> q < size /\ q <> 0) as R by (intros q Hq; apply rest_in in Hq; lia).
  unfold gen_chor. repeat apply inside_app.
  - destruct (lsf s); [apply star_out_inside; [lia|exact R]|intros x []].
  - apply star_in_inside; [lia|exact R].
  - apply star_out_inside; [lia|exact R].
  - apply ext_inside. intros x Hx. apply in_seq in Hx. lia.
Qed.
Lemma gen_len : length gen_chor = (if lsf s then size - 1 else 0) + 2 * (size - 1) + size * (size - 1).
Proof.
  unfold gen_chor. rewrite !app_length, star_len_in, star_len_out, ext_len, !seq_length by (intros x Hx; apply in_seq in Hx; lia).
  destruct (lsf s); [rewrite star_len_out, seq_length; lia|cbn [length]; lia].
Qed.
Lemma plays_generate : (forall r, r < size -> rank_grid r <> []) -> (forall r, r < size -> rank_points r <> []) ->
  plays size gen_chor (fun r => generate_points_p Q size axis s o r dim bbox fd h0 geps) (fun r => Ok (rank_fh r, rank_points r, rank_ext)).
Proof.
  intros HG HP. unfold gen_chor, generate_points_p.
  apply (plays_bind size _ _ (fun r => if lsf s then pbind (localize_sizing_p size r lfh) (fun m => Done (sizing_in m)) else Done (size_fh s)) rank_fh).
  { unfold rank_fh. destruct (lsf s); [|apply (plays_done size (fun _ => size_fh s))]. rewrite <- (app_nil_r (star_out 11 0 rest lfh)).
    apply (plays_bind size _ _ (fun r => localize_sizing_p size r lfh) lfh); [apply plays_sizing|]. apply (plays_done size (fun r => sizing_in (lfh r))). }
  cbv zeta. apply plays_ext with (f := fun r => pbind (allreduce_min size r (r0m_of o h0 (map (rank_fh r) (rank_grid r)))) (fun r0m =>
      match decimate Q r dim (rank_fh r) r0m (rank_grid r) with
      | [] => Done (Err ValueError)
      | _ => pbind (bcasts_p size r (seq 0 size) (own_extent dim axis h0 (decimate Q r dim (rank_fh r) r0m (rank_grid r)))) (fun ext => Done (Ok (rank_fh r, decimate Q r dim (rank_fh r) r0m (rank_grid r), ext)))
      end)).
  { intros r L. specialize (HG r L). fold (rank_grid r). destruct (rank_grid r); [congruence|reflexivity]. }
  apply (plays_bind size _ _ (fun r => allreduce_min size r (r0m_of o h0 (map (rank_fh r) (rank_grid r)))) (fun _ => common_r0m)); [apply plays_allreduce|].
  fold rank_points. rewrite <- (app_nil_r (ext_chor _ _)).
  apply plays_ext with (f := fun r => pbind (bcasts_p size r (seq 0 size) (own_extent dim axis h0 (rank_points r))) (fun ext => Done (Ok (rank_fh r, rank_points r, ext)))).
  { intros r L. specialize (HP r L). fold (rank_points r). destruct (rank_points r); [congruence|reflexivity]. }
  apply (plays_bind size _ _ (fun r => bcasts_p size r (seq 0 size) (own_extent dim axis h0 (rank_points r))) (fun _ => rank_ext)).
  - apply (plays_bcasts (fun r => own_extent dim axis h0 (rank_points r))). intros x Hx. apply in_seq in Hx. lia.
  - apply (plays_done size (fun r => Ok (rank_fh r, rank_points r, rank_ext))).
Qed.

(** starting points of the user *)
Section User.
Variables (blocks : list (list (list R))) (ext : list (list R)).
Definition round_chor (locals : list nat) : list (msg pmsg) :=
  flat_map (fun l => Msg' 0 l 12 (MPts (nth l blocks [])) :: star_out coll 0 (others size 0) (fun _ => MPts ext)) locals.
Lemma round_root locals : (forall l, In l locals -> l < length blocks /\ l <> 0) ->
  follows _ _ (deal_p size blocks ext locals) (prj (round_chor locals) 0) (got 0 (round_chor locals)) (Ok tt).
Proof.
  induction locals as [|l t IH]; intros H; [constructor|]. cbn [round_chor flat_map deal_p]. destruct (H l (or_introl eq_refl)) as [Hl N].
  rewrite (nth_error_nth' blocks []) by exact Hl. fold (round_chor t). change (Msg' 0 l ?u ?m :: ?a) with ([Msg' 0 l u m] ++ a).
  rewrite <- app_assoc, !prj_app, !flat_map_app. destruct (star_out_root coll 0 (others size 0) (fun _ => MPts ext)) as [-> ->]; [rewrite others_in; lia|].
  assert (prj [Msg' 0 l 12 (MPts (nth l blocks []))] 0 = [Send l 12 (MPts (nth l blocks []))]) as -> by reflexivity.
  assert (got 0 [Msg' 0 l 12 (MPts (nth l blocks []))] = []) as -> by (cbn [flat_map to src dst body app]; unfold to; cbn [dst]; destruct (Nat.eqb_spec 0 l); [congruence|reflexivity]).
  cbn [app]. constructor.
  unfold bcast_p. cbn [Nat.eqb]. apply (follows_bind _ _ [] (MPts ext)); [apply (follows_done1 _ _ _ _ (follows_send_all _ _ _))|].
  apply IH. intros x Hx. apply H. right. exact Hx.
Qed.
Lemma round_leaf r : r <> 0 -> r < size -> forall locals pts0 ext0, follows _ _ (take_p size r locals pts0 ext0) (prj (round_chor locals) r) (got r (round_chor locals))
    (if existsb (Nat.eqb r) locals then nth r blocks [] else pts0, match locals with [] => ext0 | _ => ext end).
Proof.
  intros N L. induction locals as [|l t IH]; intros pts0 ext0; [constructor|]. cbn [round_chor flat_map take_p existsb]. fold (round_chor t). change (Msg' 0 l ?u ?m :: ?a) with ([Msg' 0 l u m] ++ a).
  rewrite <- app_assoc, !prj_app, !flat_map_app.
  destruct (star_out_leaf coll 0 (others size 0) (fun _ => MPts ext) r (others_nd 0)) as [-> ->]; [apply others_in; auto|exact N|].
  apply Nat.eqb_neq in N as N'.
  assert (prj [Msg' 0 l 12 (MPts (nth l blocks []))] r = if r =? l then [Recv 0 12] else []) as -> by (unfold project, part; cbn [flat_map src dst mtag body]; rewrite N', app_nil_r; reflexivity).
  assert (got r [Msg' 0 l 12 (MPts (nth l blocks []))] = if r =? l then [(0, MPts (nth l blocks []))] else []) as -> by (unfold to; cbn [flat_map src dst body]; rewrite app_nil_r; reflexivity).
  unfold bcast_p. rewrite N'.
  assert (forall x, (if existsb (Nat.eqb r) t then nth r blocks [] else x, match t with [] => ext | _ => ext end) = (if existsb (Nat.eqb r) t then nth r blocks [] else x, ext)) as ET by (intros; destruct t; reflexivity).
  destruct (Nat.eqb_spec r l) as [<- |NL]; cbn [app orb pbind].
  - constructor. cbn [pbind]. constructor. cbn [pts_in]. specialize (IH (nth r blocks []) ext). rewrite ET in IH. destruct (existsb (Nat.eqb r) t); exact IH.
  - constructor. cbn [pts_in]. specialize (IH pts0 ext). rewrite ET in IH. exact IH.
Qed.
Definition user_chor : list (msg pmsg) := star_out 11 0 rest lfh ++ round_chor rest.
Lemma plays_user points : size <= length blocks -> blocker (q_rnd Q) dim points size axis = Ok (blocks, ext) ->
  plays size user_chor (fun r => user_points_p Q size axis s r dim bbox h0 points) (fun r => Ok (sizing_in (lfh r), nth r blocks [], ext)).
Proof.
  intros LB EB.
  apply plays_ext with (f := fun r => pbind (localize_sizing_p size r lfh) (fun m =>
      pbind (if r =? 0 then localize_points_p size r blocks ext else localize_points_p size r [] []) (fun r => match r with
        | Err e => Done (Err e)
        | Ok (p, ext') => Done (Ok (sizing_in m, p, ext'))
        end))).
  { intros r L. unfold user_points_p. rewrite EB. destruct (r =? 0); reflexivity. }
  apply (plays_bind size _ _ (fun r => localize_sizing_p size r lfh) lfh); [apply plays_sizing|]. rewrite <- (app_nil_r (round_chor rest)).
  apply (plays_bind size _ _ (fun r => if r =? 0 then localize_points_p size r blocks ext else localize_points_p size r [] []) (fun r => Ok (nth r blocks [], ext))).
  - intros r L. unfold localize_points_p. destruct (Nat.eqb_spec r 0) as [-> |N].
    + cbn [Nat.eqb]. eapply follows_last; [apply round_root; intros l Hl; apply rest_in in Hl; lia|]. reflexivity.
    + eapply follows_last; [apply round_leaf; assumption|].
      assert (existsb (Nat.eqb r) rest = true) as -> by (apply existsb_eqb, rest_in; lia). destruct rest eqn:ER; [|reflexivity].
      apply (f_equal (@length nat)) in ER. rewrite seq_length in ER. cbn in ER. lia.
  - apply (plays_done size (fun r => Ok (sizing_in (lfh r), nth r blocks [], ext))).
Qed.
Lemma user_inside : inside size user_chor.
Proof.
  assert (forall q, In q rest -> q < size /\ q <> 0) as R by (intros q Hq; apply rest_in in Hq; lia).
  apply inside_app; [apply star_out_inside; [lia|exact R]|]. intros x Hx. unfold round_chor in Hx. apply in_flat_map in Hx. destruct Hx as (l & Hl & [<- |Hx]).
  - apply rest_in in Hl. cbn. lia.
  - revert x Hx. apply star_out_inside; [lia|]. intros q Hq. apply others_in in Hq. exact Hq.
Qed.
Lemma user_len : length user_chor = (size - 1) + (size - 1) * size.
Proof.
  unfold user_chor, round_chor. rewrite app_length, star_len_out, seq_length. f_equal. rewrite flat_map_concat_map.
  assert (forall l, length (concat (map (fun l => Msg' 0 l 12 (MPts (nth l blocks [])) :: star_out coll 0 (others size 0) (fun _ => MPts ext)) l)) = length l * size) as G.
  { induction l as [|a l IH]; [reflexivity|]. cbn [map concat]. rewrite app_length, IH. cbn [length]. rewrite star_len_out, others_len by lia. lia. }
  rewrite G, seq_length. reflexivity.
Qed.
End User.
End Start.
End S.
