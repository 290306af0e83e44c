(** Laplacian smoothing: averages, convexity, maximum principle *)
From Coq Require Import List ZArith Reals Bool Arith Lia Lra.
From Verif Require Import Model.Base Model.SDF Model.Simplex Model.Mesh Model.Laplace Spec.MeshTopo Spec.Smooth
  Proofs.ListAux Proofs.MeshAux Proofs.EdgeProofs Proofs.TopoProofs.
Import ListNotations.
Local Open Scope R_scope.

(** ---- sums ---- *)
Lemma rtotal_app l1 l2 : rtotal (l1 ++ l2) = rtotal l1 + rtotal l2.
Proof. unfold rtotal. induction l1 as [|x l1 IH]; cbn [app fold_right]; [ring|]. rewrite IH. ring. Qed.
Lemma rtotal_seq n g : rtotal (map g (seq 0 n)) = sum_below n g.
Proof. induction n as [|n IH]; [reflexivity|]. rewrite seq_S, map_app, rtotal_app, IH. unfold rtotal. cbn [map fold_right sum_below plus]. ring. Qed.
Lemma sum_ext n g h : (forall u, (u < n)%nat -> g u = h u) -> sum_below n g = sum_below n h.
Proof. induction n as [|n IH]; intros H; [reflexivity|]. cbn [sum_below]. rewrite IH, H by (intros; try apply H; lia). reflexivity. Qed.
Lemma sum_plus n g h : sum_below n (fun u => g u + h u) = sum_below n g + sum_below n h.
Proof. induction n as [|n IH]; cbn [sum_below]; [ring|]. rewrite IH. ring. Qed.
Lemma sum_scal n a g : sum_below n (fun u => a * g u) = a * sum_below n g.
Proof. induction n as [|n IH]; cbn [sum_below]; [ring|]. rewrite IH. ring. Qed.
Lemma sum_zero n : sum_below n (fun _ => 0) = 0.
Proof. induction n as [|n IH]; cbn [sum_below]; [ring|]. rewrite IH. ring. Qed.
Lemma sum_nonneg n g : (forall u, (u < n)%nat -> 0 <= g u) -> 0 <= sum_below n g.
Proof. induction n as [|n IH]; intros H; cbn [sum_below]; [lra|]. specialize (IH (fun u L => H u ltac:(lia))). specialize (H n ltac:(lia)). lra. Qed.
Lemma sum_le n g h : (forall u, (u < n)%nat -> g u <= h u) -> sum_below n g <= sum_below n h.
Proof. induction n as [|n IH]; intros H; cbn [sum_below]; [lra|]. specialize (IH (fun u L => H u ltac:(lia))). specialize (H n ltac:(lia)). lra. Qed.
(** a vanishing sum of nonnegative terms *)
Lemma sum_zero_terms n g : (forall u, (u < n)%nat -> 0 <= g u) -> sum_below n g = 0 -> forall u, (u < n)%nat -> g u = 0.
Proof.
  induction n as [|n IH]; intros H S u L; [lia|]. cbn [sum_below] in S.
  pose proof (sum_nonneg n g (fun u L => H u ltac:(lia))) as A. pose proof (H n ltac:(lia)) as B.
  destruct (Nat.eq_dec u n) as [->|NE]; [lra|]. apply IH; [intros; apply H; lia|lra|lia].
Qed.
Lemma sum_delta n a f : (a < n)%nat -> sum_below n (fun u => (if (u =? a)%nat then 1 else 0) * f u) = f a.
Proof.
  induction n as [|n IH]; intros L; [lia|]. cbn [sum_below]. destruct (Nat.eq_dec a n) as [->|NE].
  - rewrite Nat.eqb_refl. rewrite (sum_ext n _ (fun _ => 0)); [rewrite sum_zero; ring|]. intros u Hu.
    destruct (Nat.eqb_spec u n); [lia|]. ring.
  - rewrite IH by lia. destruct (Nat.eqb_spec n a); [lia|]. ring.
Qed.

(** ---- neighbours ---- *)
Definition valid (n : nat) (t : list row) := forall r v, In r t -> In v r -> (v < n)%nat.
Definition triangles (t : list row) := forall r, In r t -> simplex 3 r.
Lemma nbrs_cons r t v : nbrs (r :: t) v = nbrs [r] v ++ nbrs t v.
Proof. unfold nbrs, adj_entries. cbn [flat_map]. rewrite app_nil_r, filter_app, map_app. reflexivity. Qed.
Lemma links_cons r t v u : links (r :: t) v u = links [r] v u + links t v u.
Proof.
  unfold links. destruct (v =? u)%nat; [ring|]. unfold entities_on. cbn [filter]. destruct (forallb (has r) [v; u]); cbn [length].
  - rewrite S_INR. cbn [INR]. ring.
  - cbn [INR]. ring.
Qed.
Ltac eqbs := repeat match goal with |- context [(?a =? ?b)%nat] => destruct (Nat.eqb_spec a b); subst; try lia; try congruence; cbn [andb orb] end.
Lemma nbrs_row a b c n v f : NoDup [a; b; c] -> (a < n)%nat -> (b < n)%nat -> (c < n)%nat ->
  rtotal (map f (nbrs [[a; b; c]] v)) = sum_below n (fun u => links [[a; b; c]] v u * f u).
Proof.
  intros ND La Lb Lc.
  assert (a <> b /\ a <> c /\ b <> c) as [Nab [Nac Nbc]].
  { inversion ND as [|? ? N1 ND1]; subst. inversion ND1 as [|? ? N2 ND2]; subst. cbn in N1, N2. intuition. }
  clear ND. unfold nbrs, adj_entries. cbn [flat_map map nth fst snd app].
  assert (forall x y, x <> y -> (x < n)%nat -> (y < n)%nat -> forall g,
    (forall u, (u < n)%nat -> g u = ((if (u =? x)%nat then 1 else 0) * f u + (if (u =? y)%nat then 1 else 0) * f u)) ->
    f x + (f y + 0) = sum_below n g) as T.
  { intros x y Nxy Lx Ly g Hg. rewrite (sum_ext n g _ Hg), sum_plus, !sum_delta by assumption. ring. }
  destruct (Nat.eq_dec v a) as [->|Na]; [|destruct (Nat.eq_dec v b) as [->|Nb]; [|destruct (Nat.eq_dec v c) as [->|Nc]]].
  - cbn [filter fst snd map]. eqbs. unfold rtotal. cbn [map snd fold_right]. apply T; [assumption..|].
    intros u Lu. unfold links, entities_on. cbn [filter]. unfold has. cbn [forallb existsb]. eqbs; cbn [length INR]; lra.
  - cbn [filter fst snd map]. eqbs. unfold rtotal. cbn [map snd fold_right]. apply T; [assumption..|].
    intros u Lu. unfold links, entities_on. cbn [filter]. unfold has. cbn [forallb existsb]. eqbs; cbn [length INR]; lra.
  - cbn [filter fst snd map]. eqbs. unfold rtotal. cbn [map snd fold_right]. apply T; [assumption..|].
    intros u Lu. unfold links, entities_on. cbn [filter]. unfold has. cbn [forallb existsb]. eqbs; cbn [length INR]; lra.
  - cbn [filter fst snd map]. eqbs. unfold rtotal. cbn [map fold_right].
    rewrite (sum_ext n _ (fun _ => 0)); [rewrite sum_zero; reflexivity|].
    intros u Lu. unfold links, entities_on. cbn [filter]. unfold has. cbn [forallb existsb]. eqbs; cbn [length INR]; lra.
Qed.
Lemma nbrs_sum n t v f : triangles t -> valid n t -> rtotal (map f (nbrs t v)) = sum_below n (fun u => links t v u * f u).
Proof.
  induction t as [|r t IH]; intros HT HV.
  - unfold nbrs, adj_entries, rtotal. cbn. rewrite (sum_ext n _ (fun _ => 0)); [rewrite sum_zero; reflexivity|]. intros u _. unfold links, entities_on. destruct (v =? u)%nat; cbn; ring.
  - rewrite nbrs_cons, map_app, rtotal_app, IH; [|intros r' H; apply HT; right; exact H|intros r' w H; apply HV; right; exact H].
    destruct (HT r (or_introl eq_refl)) as [L3 ND]. destruct (row3 r L3) as [a [b [c ->]]].
    rewrite (nbrs_row a b c n) by (try exact ND; apply (HV _ _ (or_introl eq_refl)); cbn; tauto).
    rewrite <- sum_plus. apply sum_ext. intros u _. rewrite (links_cons _ t). ring.
Qed.
Lemma rtotal_ones {A} (l : list A) : rtotal (map (fun _ => 1) l) = INR (length l).
Proof. unfold rtotal. induction l as [|x l IH]; [reflexivity|]. cbn [map fold_right length]. rewrite IH, S_INR. ring. Qed.
Lemma nbrs_count n t v : triangles t -> valid n t -> INR (length (nbrs t v)) = sum_below n (links t v).
Proof. intros HT HV. rewrite <- rtotal_ones, (nbrs_sum n) by assumption. apply sum_ext. intros; ring. Qed.
Lemma links_nonneg t v u : 0 <= links t v u.
Proof. unfold links. destruct (v =? u)%nat; [lra|apply pos_INR]. Qed.
Lemma links_pos t v u r : In r t -> In v r -> In u r -> v <> u -> 0 < links t v u.
Proof.
  intros Hr Hv Hu N. unfold links. destruct (Nat.eqb_spec v u); [congruence|]. apply (lt_INR 0). unfold entities_on.
  assert (In r (filter (fun r => forallb (has r) [v; u]) t)) as I.
  { apply filter_In. split; [exact Hr|]. cbn [forallb]. rewrite !(proj2 (has_in _ _)) by assumption. reflexivity. }
  destruct (filter _ t); [destruct I|]. cbn [length]. lia.
Qed.
Lemma nbrs_used t v : triangles t -> ((exists r, In r t /\ In v r) <-> length (nbrs t v) <> 0%nat).
Proof.
  intros HT. split.
  - intros [r [Hr Hv]]. destruct (HT r Hr) as [L3 ND]. destruct (row3 r L3) as [a [b [c ->]]]. unfold nbrs.
    assert (exists e, In e (filter (fun e => (fst e =? v)%nat) (adj_entries t))) as [e He].
    { destruct Hv as [<- | [<- | [<- | []]]]; [exists (a, b)|exists (b, a)|exists (c, a)]; apply filter_In; split; try (cbn; apply Nat.eqb_refl);
        apply in_flat_map; exists [a; b; c]; (split; [exact Hr|]); cbn; tauto. }
    rewrite map_length. destruct (filter _ _); [destruct He|]. discriminate.
  - intros N. unfold nbrs in N. rewrite map_length in N. destruct (filter _ (adj_entries t)) as [|e l] eqn:E; [cbn in N; lia|].
    assert (In e (filter (fun e => (fst e =? v)%nat) (adj_entries t))) as I by (rewrite E; left; reflexivity).
    apply filter_In in I. destruct I as [I H]. apply Nat.eqb_eq in H. apply in_flat_map in I. destruct I as [r [Hr I]]. exists r. split; [exact Hr|].
    destruct (HT r Hr) as [L3 _]. destruct (row3 r L3) as [a [b [c ->]]]. cbn in I. 
    repeat (destruct I as [<- | I]; [cbn in H; subst v; cbn; tauto|]). destruct I.
Qed.

(** ---- fixed vertices ---- *)
Lemma mem_fixed v l : existsb (Nat.eqb v) l = true <-> In v l.
Proof.
  rewrite existsb_exists. split; [intros [x [H E]]; apply Nat.eqb_eq in E; subst; exact H|]. intros H. exists v. split; [exact H|apply Nat.eqb_refl].
Qed.
Lemma argmin_from_spec l : forall i b bv (all : list R), (forall k, (k < length l)%nat -> nth (i + k) all 0 = nth k l 0) ->
  length all = (i + length l)%nat -> (b < i)%nat -> bv = nth b all 0 ->
  (forall k, (k < i)%nat -> nth b all 0 <= nth k all 0) -> (forall k, (k < b)%nat -> nth b all 0 < nth k all 0) ->
  let m := argmin_from i b bv l in (m < length all)%nat /\
   (forall k, (k < length all)%nat -> nth m all 0 <= nth k all 0) /\ (forall k, (k < m)%nat -> nth m all 0 < nth k all 0).
Proof.
  induction l as [|x l IH]; intros i b bv all HN HL Lb -> M1 M2 m.
  - subst m. cbn [argmin_from length] in *. rewrite Nat.add_0_r in HL. rewrite HL. auto.
  - subst m. cbn [argmin_from]. pose proof (HN 0%nat ltac:(cbn; lia)) as H0. rewrite Nat.add_0_r in H0. cbn [nth] in H0.
    assert (forall k, (k < length l)%nat -> nth (S i + k) all 0 = nth k l 0) as HN'.
    { intros k Hk. specialize (HN (S k) ltac:(cbn; lia)). cbn [nth] in HN. rewrite <- HN. f_equal. lia. }
    cbn [length] in HL. destruct (Rltb x (nth b all 0)) eqn:E.
    + apply Rltb_true in E. apply IH; try assumption; try lia; try (symmetry; assumption).
      * intros k Hk. destruct (Nat.eq_dec k i) as [->|Nk]; [lra|]. specialize (M1 k ltac:(lia)). lra.
      * intros k Hk. specialize (M1 k Hk). lra.
    + apply Rltb_false in E. apply IH; try assumption; try lia; [reflexivity|]. intros k Hk. destruct (Nat.eq_dec k i) as [->|Nk]; [lra|]. apply M1. lia.
Qed.
Lemma argmin_spec l : l <> [] -> (argmin l < length l)%nat /\
   (forall k, (k < length l)%nat -> nth (argmin l) l 0 <= nth k l 0) /\ (forall k, (k < argmin l)%nat -> nth (argmin l) l 0 < nth k l 0).
Proof.
  destruct l as [|x l]; [congruence|]. intros _. unfold argmin. apply (argmin_from_spec l 1 0 x (x :: l)); try reflexivity; try lia.
  intros k Hk. destruct k; [cbn; lra|lia].
Qed.
Lemma sq2_gap2 a b : length a = 2%nat -> length b = 2%nat -> sq2 a b = gap2 a b.
Proof.
  intros Ha Hb. destruct a as [|a0 [|a1 [|]]]; try discriminate. destruct b as [|b0 [|b1 [|]]]; try discriminate.
  unfold sq2, gap2, rtotal, map2. cbn. ring.
Qed.
Lemma closest_nearest q p : length q = 2%nat -> (forall x, In x p -> length x = 2%nat) -> p <> [] -> nearest p q (closest_node q p).
Proof.
  intros Lq Lp NE. unfold closest_node. set (ds := map (fun r => sq2 r q) p).
  assert (ds <> []) as ND by (unfold ds; destruct p; [congruence|discriminate]).
  destruct (argmin_spec ds ND) as [A [B C]]. assert (length ds = length p) as LD by apply map_length. rewrite LD in *.
  assert (forall k, (k < length p)%nat -> nth k ds 0 = gap2 (nth k p []) q) as G.
  { intros k Hk. unfold ds. rewrite (nth_map' (A:=list R) (B:=R) _ _ _ 0 []) by exact Hk. apply sq2_gap2; [apply Lp, nth_In, Hk|exact Lq]. }
  split; [exact A|]. split.
  - intros u Hu. specialize (B u Hu). rewrite !G in B by assumption. exact B.
  - intros u Hu. specialize (C u Hu). rewrite !G in C by lia. exact C.
Qed.
Lemma nearest_unique p q v w : nearest p q v -> nearest p q w -> v = w.
Proof.
  intros [A [B C]] [A' [B' C']]. destruct (Nat.lt_total v w) as [L|[E|L]]; [|exact E|].
  - specialize (C' v L). specialize (B w A'). lra.
  - specialize (C w L). specialize (B' v A). lra.
Qed.

(** ---- sweeps ---- *)
Lemma sweep_length t fx p : length (lap_sweep t fx p) = length p.
Proof. unfold lap_sweep. rewrite map_length, seq_length. reflexivity. Qed.
Lemma sweep_nth t fx p v : (v < length p)%nat -> nth v (lap_sweep t fx p) [] =
  if existsb (Nat.eqb v) fx then nth v p []
    else map (fun j => rtotal (map (fun u => nth j (nth u p []) 0) (nbrs t v)) / INR (length (nbrs t v))) [0; 1]%nat.
Proof.
  intros L. unfold lap_sweep. rewrite (nth_map' (A:=nat) (B:=list R) _ _ _ [] O) by (rewrite seq_length; exact L). rewrite seq_nth by exact L. reflexivity.
Qed.
Lemma sweep_step t fx p F : triangles t -> valid (length p) t -> (forall x, In x p -> length x = 2%nat) -> (forall v, (v < length p)%nat -> exists r, In r t /\ In v r) ->
  (forall v, In v fx <-> F v) -> averaging_step t F p (lap_sweep t fx p).
Proof.
  intros HT HV HP HU HF. split; [apply sweep_length|]. intros v Lv. rewrite (sweep_nth t fx p v Lv).
  destruct (existsb (Nat.eqb v) fx) eqn:E.
  - apply mem_fixed, HF in E. split; [apply HP, nth_In, Lv|]. split; [reflexivity|]. intros N. contradiction.
  - split; [reflexivity|]. split; [intros N; apply HF, mem_fixed in N; congruence|]. intros _.
    assert (0 < INR (length (nbrs t v))) as WP.
    { apply (lt_INR 0). pose proof (proj1 (nbrs_used t v HT) (HU v Lv)). lia. }
    split; [rewrite <- (nbrs_count (length p)) by assumption; exact WP|].
    intros j Lj. unfold coord. rewrite (sweep_nth t fx p v Lv), E. rewrite <- (nbrs_count (length p)) by assumption.
    rewrite <- (nbrs_sum (length p) t v (fun u => nth j (nth u p []) 0)) by assumption.
    destruct j as [|[|j]]; [..|lia]; cbn [map nth]; field; lra.
Qed.
Lemma sweep_rows2 t fx p : (forall x, In x p -> length x = 2%nat) -> forall x, In x (lap_sweep t fx p) -> length x = 2%nat.
Proof.
  intros HP x Hx. unfold lap_sweep in Hx. apply in_map_iff in Hx. destruct Hx as [v [<- Hv]]. apply in_seq in Hv.
  destruct (existsb _ _); [apply HP, nth_In; lia|reflexivity].
Qed.
(** the loop: some number of sweeps *)
Lemma loop_steps t fx F es tol : triangles t -> (forall v, In v fx <-> F v) -> forall k L p,
  valid (length p) t -> (forall x, In x p -> length x = 2%nat) -> (forall v, (v < length p)%nat -> exists r, In r t /\ In v r) ->
  exists k', (k' <= k)%nat /\ ((1 <= k)%nat -> (1 <= k')%nat) /\ steps t F k' p (lap_loop k t fx es tol L p).
Proof.
  intros HT HF. induction k as [|k IH]; intros L p HV HP HU.
  - exists 0%nat. split; [lia|]. split; [lia|]. apply steps_O.
  - cbn [lap_loop]. pose proof (sweep_step t fx p F HT HV HP HU HF) as ST.
    destruct (Rltb _ tol).
    + exists 1%nat. split; [lia|]. split; [lia|]. eapply steps_S; [exact ST|apply steps_O].
    + destruct (IH (edge_lens es (lap_sweep t fx p)) (lap_sweep t fx p)) as [k' [A [B C]]].
      * rewrite sweep_length. exact HV.
      * apply sweep_rows2, HP.
      * rewrite sweep_length. exact HU.
      * exists (S k'). split; [lia|]. split; [lia|]. eapply steps_S; [exact ST|exact C].
Qed.
(** what steps preserve *)
Lemma steps_length t F k p q : steps t F k p q -> length q = length p.
Proof. induction 1 as [|k p q r [HL _] _ IH]; [reflexivity|]. congruence. Qed.
Lemma steps_fixed t F k p q v : steps t F k p q -> (v < length p)%nat -> F v -> nth v q [] = nth v p [].
Proof.
  induction 1 as [|k p q r [HL ST] _ IH]; intros L HF; [reflexivity|]. rewrite IH by (try assumption; lia). apply ST; assumption.
Qed.
Lemma average_halfplane t p q v a b c : averages t p q v -> (forall u, (u < length p)%nat -> a * coord p u 0 + b * coord p u 1 <= c) ->
  a * coord q v 0 + b * coord q v 1 <= c.
Proof.
  intros [WP AV] H. set (W := sum_below (length p) (links t v)) in *.
  assert ((a * coord q v 0 + b * coord q v 1) * W = sum_below (length p) (fun u => links t v u * (a * coord p u 0 + b * coord p u 1))) as E.
  { replace ((a * coord q v 0 + b * coord q v 1) * W) with (a * (coord q v 0 * W) + b * (coord q v 1 * W)) by ring.
    rewrite !AV by lia. rewrite <- !sum_scal, <- sum_plus. apply sum_ext. intros; ring. }
  apply (Rmult_le_reg_r W); [exact WP|]. rewrite E. unfold W. rewrite <- sum_scal. apply sum_le. intros u Lu.
  rewrite (Rmult_comm c). apply Rmult_le_compat_l; [apply links_nonneg|apply H, Lu].
Qed.
Lemma steps_halfplane t F k p q a b c : (forall v, F v \/ ~ F v) -> steps t F k p q -> (forall u, (u < length p)%nat -> a * coord p u 0 + b * coord p u 1 <= c) ->
  forall u, (u < length p)%nat -> a * coord q u 0 + b * coord q u 1 <= c.
Proof.
  intros DEC. induction 1 as [|k p q r [HL ST] _ IH]; intros H u Lu; [apply H, Lu|]. apply IH; [|lia]. intros w Lw. rewrite HL in Lw.
  destruct (ST w Lw) as [_ [S1 S2]]. destruct (DEC w) as [Fw|Nw].
  - unfold coord. rewrite (S1 Fw). apply H, Lw.
  - apply (average_halfplane t p q w); [apply S2, Nw|exact H].
Qed.

(** ---- laplacian2 ---- *)
Lemma fixed_mem uniq t p pfix : uniq_ok uniq -> triangles t -> (forall x, In x p -> length x = 2%nat) -> p <> [] ->
  (forall q, In q (asked pfix) -> length q = 2%nat) ->
  forall v, In v (get_boundary_vertices uniq 2 t ++ map (fun q => closest_node q p) (asked pfix)) <-> held t p pfix v.
Proof.
  intros HU HT HP NE HQ v. rewrite in_app_iff. unfold held, on_boundary.
  rewrite (proj2 (boundary_vertices_spec uniq 2 t (or_introl eq_refl) HU HT)). rewrite in_map_iff. split.
  - intros [A|[q [E I]]]; [left; exact A|right]. exists q. split; [exact I|]. rewrite <- E. apply closest_nearest; auto.
  - intros [A|[q [I N]]]; [left; exact A|right]. exists q. split; [|exact I]. apply (nearest_unique p q); [|exact N]. apply closest_nearest; auto.
Qed.
Lemma unused_test (p : list (list R)) t : triangles t -> (existsb (fun v => (length (nbrs t v) =? 0)%nat) (seq 0 (length p)) = true <->
  exists v, (v < length p)%nat /\ forall r, In r t -> ~ In v r).
Proof.
  intros HT. rewrite existsb_exists. split.
  - intros [v [I E]]. apply in_seq in I. apply Nat.eqb_eq in E. exists v. split; [lia|]. intros r Hr Hv.
    apply (proj1 (nbrs_used t v HT)); [eauto|exact E].
  - intros [v [L H]]. exists v. split; [apply in_seq; lia|]. apply Nat.eqb_eq. destruct (length (nbrs t v)) eqn:E; [reflexivity|].
    exfalso. assert (length (nbrs t v) <> 0%nat) as N by lia. apply (nbrs_used t v HT) in N. destruct N as [r [Hr Hv]]. exact (H r Hr Hv).
Qed.
Lemma laplacian2_unused uniq p t k tol pfix v : triangles t -> (v < length p)%nat -> (forall r, In r t -> ~ In v r) ->
  laplacian2 uniq p t k tol pfix = Ok (p, t).
Proof. intros HT L H. unfold laplacian2. rewrite (proj2 (unused_test p t HT)) by eauto. reflexivity. Qed.
Lemma laplacian2_used uniq p t k tol pfix p' t' : triangles t -> (forall v, (v < length p)%nat -> exists r, In r t /\ In v r) ->
  laplacian2 uniq p t k tol pfix = Ok (p', t') ->
  t' = t /\ p' = lap_loop k t (get_boundary_vertices uniq 2 t ++ map (fun q => closest_node q p) (asked pfix)) (get_edges 2 t) tol (edge_lens (get_edges 2 t) p) p.
Proof.
  intros HT HU. unfold laplacian2. destruct (existsb _ (seq 0 (length p))) eqn:E.
  - apply (unused_test p t HT) in E. destruct E as [v [L H]]. destruct (HU v L) as [r [Hr Hv]]. destruct (H r Hr Hv).
  - fold (asked pfix). destruct (get_boundary_vertices uniq 2 t), pfix as [[|]|], k; intros H; inversion H; subst; split; reflexivity.
Qed.
Lemma held_dec t p pfix v : held t p pfix v \/ ~ held t p pfix v.
Proof. apply Classical_Prop.classic. Qed.
Lemma used_dec (t : list row) n : (exists v, (v < n)%nat /\ forall r, In r t -> ~ In v r) \/ (forall v, (v < n)%nat -> exists r, In r t /\ In v r).
Proof.
  destruct (Classical_Prop.classic (exists v, (v < n)%nat /\ forall r, In r t -> ~ In v r)) as [H|H]; [left; exact H|right].
  intros v L. apply Classical_Prop.NNPP. intros N. apply H. exists v. split; [exact L|]. intros r Hr Hv. apply N. eauto.
Qed.
Lemma laplacian2_spec uniq p t k tol pfix p' t' : uniq_ok uniq -> triangles t -> valid (length p) t -> (forall x, In x p -> length x = 2%nat) ->
  (forall q, In q (asked pfix) -> length q = 2%nat) -> laplacian2 uniq p t k tol pfix = Ok (p', t') ->
  t' = t /\ exists k', (k' <= k)%nat /\ steps t (held t p pfix) k' p p'.
Proof.
  intros HU HT HV HP HQ H. destruct (used_dec t (length p)) as [[v [L U]]|U].
  - rewrite (laplacian2_unused uniq p t k tol pfix v HT L U) in H. inversion H; subst. split; [reflexivity|]. exists 0%nat. split; [lia|apply steps_O].
  - destruct (laplacian2_used uniq p t k tol pfix p' t' HT U H) as [-> ->]. split; [reflexivity|].
    destruct p as [|x0 p0]. { 
      exists 0%nat. split; [lia|]. destruct (loop_steps t (get_boundary_vertices uniq 2 t ++ map (fun q => closest_node q []) (asked pfix))
        (fun v => In v (get_boundary_vertices uniq 2 t ++ map (fun q => closest_node q []) (asked pfix))) (get_edges 2 t) tol HT (fun v => iff_refl _) k (edge_lens (get_edges 2 t) []) [] HV HP U) as [k' [_ [_ ST]]].
      apply steps_length in ST. cbn in ST. destruct (lap_loop _ _ _ _ _ _ _); [apply steps_O|discriminate]. }
    destruct (loop_steps t _ _ (get_edges 2 t) tol HT (fixed_mem uniq t (x0 :: p0) pfix HU HT HP ltac:(discriminate) HQ) k (edge_lens (get_edges 2 t) (x0 :: p0)) (x0 :: p0) HV HP U) as [k' [A [_ B]]].
    exists k'. split; assumption.
Qed.
