(** Early stopping of laplacian2; the linear system of laplacian2_fixed_point *)
From Coq Require Import List ZArith Reals Bool Arith Lia Lra.
From Verif Require Import Model.Base Model.SDF Model.Simplex Model.Mesh Model.Laplace Spec.MeshTopo Spec.Smooth
  Proofs.ListAux Proofs.MeshAux Proofs.EdgeProofs Proofs.TopoProofs Proofs.SDFMore Proofs.LaplaceProofs.
Import ListNotations.
Local Open Scope R_scope.

(** ---- C53: stops when no edge got longer ---- *)
Lemma sub_len_gap a b : length a = 2%nat -> length b = 2%nat -> sub_len a b = sqrt (gap2 a b).
Proof.
  intros Ha Hb. destruct a as [|a0 [|a1 [|]]]; try discriminate. destruct b as [|b0 [|b1 [|]]]; try discriminate.
  unfold sub_len, gap2, map2. cbn. f_equal. ring.
Qed.
Lemma eps52_pos : 0 < eps52.
Proof. unfold eps52. apply Rinv_0_lt_compat, pow_lt. lra. Qed.
Lemma edge_lens_pos es p x : In x (edge_lens es p) -> 0 < x.
Proof.
  unfold edge_lens. intros H. apply in_map_iff in H. destruct H as [e [<- _]]. pose proof eps52_pos. cbv zeta.
  destruct (Rltb (sub_len (nth (nth 0 e 0%nat) p []) (nth (nth 1 e 0%nat) p [])) eps52) eqn:E; [assumption|]. apply Rltb_false in E. lra.
Qed.
Lemma shrunk_stops t p q tol : (forall r, In r t -> length r = 3%nat) -> t <> [] -> valid (length p) t -> length q = length p ->
  (forall x, In x p -> length x = 2%nat) -> (forall x, In x q -> length x = 2%nat) -> shrunk t p q -> 0 < tol ->
  Rltb (max_list (map2 (fun ln l => (ln - l) / ln) (edge_lens (get_edges 2 t) q) (edge_lens (get_edges 2 t) p))) tol = true.
Proof.
  intros HT NE HV LQ HP HQ SH TP. apply Rltb_true.
  assert (forall es, (forall e, In e es -> In e (get_edges 2 t)) ->
    Forall (fun x => x <= 0) (map2 (fun ln l => (ln - l) / ln) (edge_lens es q) (edge_lens es p))) as K.
  { induction es as [|e es IH]; intros H; [apply Forall_nil|]. unfold map2, edge_lens. cbn [map combine fst snd]. apply Forall_cons; [|apply IH; intros; apply H; right; assumption].
    destruct (proj1 (get_edges_complete 2 t (or_introl eq_refl) HT) e (H e (or_introl eq_refl))) as [r [a [b [Hr [Hab ->]]]]]. cbn [nth].
    assert (In a r /\ In b r) as [Ia Ib].
    { destruct Hab as [i [j [Li [Lj [_ [<- <-]]]]]]. split; apply nth_In; assumption. }
    pose proof (HV r a Hr Ia) as La. pose proof (HV r b Hr Ib) as Lb.
    rewrite (sub_len_gap (nth a q [])), (sub_len_gap (nth a p [])) by (first [apply HQ; apply nth_In; rewrite LQ; assumption|apply HP; apply nth_In; assumption]).
    pose proof (sqrt_le_1_alt _ _ (SH r a b Hr Hab)) as M. pose proof eps52_pos as EP.
    set (x := sqrt (gap2 (nth a q []) (nth b q []))) in *. set (y := sqrt (gap2 (nth a p []) (nth b p []))) in *.
    assert (forall u v, 0 < u -> u <= v -> (u - v) / u <= 0) as D.
    { intros u v Hu Huv. apply Ropp_le_cancel. rewrite Ropp_0. replace (- ((u - v) / u)) with ((v - u) * / u) by (field; lra).
      apply Rmult_le_pos; [lra|]. left. apply Rinv_0_lt_compat, Hu. }
    destruct (Rltb x eps52) eqn:EX; [apply Rltb_true in EX|apply Rltb_false in EX]; destruct (Rltb y eps52) eqn:EY; [apply Rltb_true in EY|apply Rltb_false in EY|apply Rltb_true in EY|apply Rltb_false in EY]; apply D; lra. }
  apply Rle_lt_trans with 0; [|exact TP]. apply max_list_le; [|apply K; auto].
  destruct t as [|r t0]; [congruence|]. unfold map2, edge_lens. destruct (get_edges 2 (r :: t0)) eqn:E; [|discriminate].
  unfold get_edges in E. cbn in E. discriminate.
Qed.
Lemma step_unique t F p q q' : (forall v, F v \/ ~ F v) -> averaging_step t F p q -> averaging_step t F p q' -> q = q'.
Proof.
  intros DEC [L1 S1] [L2 S2]. apply (nth_ext _ _ [] []); [congruence|]. intros v Lv. rewrite L1 in Lv.
  destruct (S1 v Lv) as [A1 [B1 C1]]. destruct (S2 v Lv) as [A2 [B2 C2]]. destruct (DEC v) as [Fv|Nv]; [rewrite B1, B2 by exact Fv; reflexivity|].
  destruct (C1 Nv) as [WP E1]. destruct (C2 Nv) as [_ E2]. unfold coord in E1, E2.
  assert (forall j, (j < 2)%nat -> nth j (nth v q []) 0 = nth j (nth v q' []) 0) as E.
  { intros j Lj. specialize (E1 j Lj). specialize (E2 j Lj). rewrite <- E2 in E1. apply Rmult_eq_reg_r in E1; [exact E1|lra]. }
  apply (nth_ext _ _ 0 0); [congruence|]. intros j Lj. apply E. lia.
Qed.
Lemma stops_when_shrunk uniq p t k tol pfix q : uniq_ok uniq -> triangles t -> valid (length p) t -> (forall x, In x p -> length x = 2%nat) ->
  (forall x, In x (asked pfix) -> length x = 2%nat) -> (forall v, (v < length p)%nat -> exists r, In r t /\ In v r) ->
  (exists v, on_boundary t v) -> pfix <> Some [] ->
  averaging_step t (held t p pfix) p q -> shrunk t p q -> 0 < tol -> (1 <= k)%nat -> laplacian2 uniq p t k tol pfix = Ok (q, t).
Proof.
  intros HU HT HV HP HQ U [vb Hb] NF ST SH TP Lk. unfold laplacian2. destruct (existsb _ (seq 0 (length p))) eqn:E.
  { apply (unused_test p t HT) in E. destruct E as [v [L H]]. destruct (U v L) as [r [Hr Hv]]. destruct (H r Hr Hv). }
  assert (p <> []) as NP.
  { intros ->. destruct Hb as [f [_ [_ [C F]]]]. destruct (on_some f t C) as [r [Hr HF]]. specialize (HV r vb Hr (HF vb F)). cbn in HV. lia. }
  fold (asked pfix). pose proof (fixed_mem uniq t p pfix HU HT HP NP HQ) as FM.
  pose proof (proj2 (proj2 (boundary_vertices_spec uniq 2 t (or_introl eq_refl) HU HT) vb) Hb) as IB.
  set (fx := get_boundary_vertices uniq 2 t ++ map (fun q => closest_node q p) (asked pfix)) in *.
  assert (lap_loop k t fx (get_edges 2 t) tol (edge_lens (get_edges 2 t) p) p = q) as EL.
  { assert (lap_sweep t fx p = q) as ES by (apply (step_unique t (held t p pfix) p); [apply held_dec|apply sweep_step; assumption|exact ST]).
    destruct k as [|k]; [lia|]. cbn [lap_loop]. rewrite ES. rewrite shrunk_stops; try assumption; try reflexivity.
    - intros r Hr. apply (HT r Hr).
    - destruct t; [|discriminate]. destruct p as [|x p0]; [congruence|]. destruct (U 0%nat ltac:(cbn; lia)) as [r [[] _]].
    - apply ST.
    - rewrite <- ES. apply sweep_rows2, HP. }
  rewrite EL. destruct (get_boundary_vertices uniq 2 t); [destruct IB|]. destruct pfix as [[|]|]; try congruence; destruct k; try lia; reflexivity.
Qed.

(** ---- C54: the system ---- *)
Lemma coo_sum n (L : list (nat * nat * R)) v f : (forall e, In e L -> (snd (fst e) < n)%nat) ->
  sum_below n (fun u => rtotal (map (fun e => snd e) (filter (fun e => (fst (fst e) =? v)%nat && (snd (fst e) =? u)%nat) L)) * f u)
  = rtotal (map (fun e => snd e * f (snd (fst e))) (filter (fun e => (fst (fst e) =? v)%nat) L)).
Proof.
  induction L as [|[[a b] x] L IH]; intros H.
  - cbn. rewrite (sum_ext n _ (fun _ => 0)); [apply sum_zero|]. intros; ring.
  - specialize (IH (fun e He => H e (or_intror He))). cbn [filter fst snd]. destruct (Nat.eqb_spec a v) as [->|N]; cbn [andb].
    + cbn [map snd fst]. unfold rtotal at 2. cbn [fold_right]. fold (rtotal (map (fun e => snd e * f (snd (fst e))) (filter (fun e => (fst (fst e) =? v)%nat) L))). rewrite <- IH.
      rewrite <- (sum_delta n b f) by (apply (H (v, b, x)); left; reflexivity). rewrite <- (sum_scal n x), <- sum_plus. apply sum_ext. intros u Lu.
      rewrite (Nat.eqb_sym b u). destruct (u =? b)%nat; [cbn [map snd]; unfold rtotal; cbn [fold_right]; ring|ring].
    + exact IH.
Qed.
Lemma coo_row n t v f : triangles t -> valid n t ->
  sum_below n (fun u => coo_at t v u * f u) = sum_below n (links t v) * f v - sum_below n (fun u => links t v u * f u).
Proof.
  intros HT HV. unfold coo_at. rewrite coo_sum.
  - rewrite <- (nbrs_count n t v HT HV), <- (nbrs_sum n t v f HT HV).
    assert (forall a b c, NoDup [a; b; c] ->
       rtotal (map (fun e => snd e * f (snd (fst e))) (filter (fun e => (fst (fst e) =? v)%nat) (coo_entries [[a;b;c]])))
       = INR (length (nbrs [[a;b;c]] v)) * f v - rtotal (map f (nbrs [[a;b;c]] v))) as ROW.
    { intros a b c ND. assert (a <> b /\ a <> c /\ b <> c) as [Nab [Nac Nbc]].
      { inversion ND as [|? ? N1 ND1]; subst. inversion ND1 as [|? ? N2 ND2]; subst. cbn in N1, N2. intuition. }
      unfold coo_entries, nbrs, adj_entries. cbn [flat_map map nth fst snd app].
      destruct (Nat.eq_dec v a) as [->|Na]; [|destruct (Nat.eq_dec v b) as [->|Nb]; [|destruct (Nat.eq_dec v c) as [->|Nc]]];
      cbn [filter fst snd]; eqbs; unfold rtotal; cbn [map snd fst fold_right length INR]; ring. }
    clear HV. induction t as [|r t IH]; [unfold nbrs, rtotal; cbn; ring|].
    specialize (IH (fun r' H => HT r' (or_intror H))). destruct (HT r (or_introl eq_refl)) as [L3 ND]. destruct (row3 r L3) as [a [b [c ->]]].
    rewrite nbrs_cons, app_length, plus_INR, map_app, rtotal_app.
    change (coo_entries ([a; b; c] :: t)) with (coo_entries [[a; b; c]] ++ coo_entries t).
    rewrite filter_app, map_app, rtotal_app, IH, (ROW a b c ND). ring.
  - intros [[a b] x] He. cbn [fst snd]. unfold coo_entries in He. apply in_flat_map in He. destruct He as [r [Hr He]].
    destruct (HT r Hr) as [L3 ND]. destruct (row3 r L3) as [i [j [k ->]]]. cbn in He.
    repeat (destruct He as [He|He]; [inversion He; subst; apply (HV _ _ Hr); cbn; tauto|]). destruct He.
Qed.
Lemma solves_boundary uniq p t x v : uniq_ok uniq -> triangles t -> lap_solves uniq p t x -> (v < length p)%nat -> on_boundary t v ->
  forall j, (j < 2)%nat -> coord x v j = coord p v j.
Proof.
  intros HU HT [LX H] Lv Hb j Lj. specialize (H v j Lv Lj).
  pose proof (proj2 (mem_fixed _ _) (proj2 (proj2 (boundary_vertices_spec uniq 2 t (or_introl eq_refl) HU HT) v) Hb)) as E.
  unfold lap_rhs, lap_matrix in H. rewrite E in H. rewrite rtotal_seq in H. unfold coord. rewrite <- H, <- (sum_delta (length p) v (fun u => nth j (nth u x []) 0) Lv).
  apply sum_ext. intros u _. rewrite (Nat.eqb_sym v u). reflexivity.
Qed.
Lemma solves_interior uniq p t x v : uniq_ok uniq -> triangles t -> valid (length p) t -> lap_solves uniq p t x -> (v < length p)%nat -> ~ on_boundary t v ->
  forall j, (j < 2)%nat -> coord x v j * sum_below (length p) (links t v) = sum_below (length p) (fun u => links t v u * coord x u j).
Proof.
  intros HU HT HV [LX H] Lv Hb j Lj. specialize (H v j Lv Lj).
  assert (existsb (Nat.eqb v) (get_boundary_vertices uniq 2 t) = false) as E.
  { destruct (existsb _ _) eqn:E; [|reflexivity]. apply mem_fixed, (proj2 (boundary_vertices_spec uniq 2 t (or_introl eq_refl) HU HT)) in E. contradiction. }
  unfold lap_rhs, lap_matrix in H. rewrite E in H. rewrite rtotal_seq, (coo_row (length p) t v (fun u => nth j (nth u x []) 0) HT HV) in H. unfold coord. lra.
Qed.
(** discrete maximum principle *)
Lemma sum_max n (g : nat -> R) : (0 < n)%nat -> exists v, (v < n)%nat /\ forall u, (u < n)%nat -> g u <= g v.
Proof.
  induction n as [|n IH]; intros L; [lia|]. destruct n as [|n].
  - exists 0%nat. split; [lia|]. intros u Hu. replace u with 0%nat by lia. lra.
  - destruct IH as [v [Lv M]]; [lia|]. destruct (Rle_dec (g (S n)) (g v)) as [H|H].
    + exists v. split; [lia|]. intros u Hu. destruct (Nat.eq_dec u (S n)) as [->|]; [exact H|apply M; lia].
    + exists (S n). split; [lia|]. intros u Hu. destruct (Nat.eq_dec u (S n)) as [->|]; [lra|]. specialize (M u ltac:(lia)). lra.
Qed.
Lemma max_principle t n g c : triangles t -> valid n t ->
  (forall v, (v < n)%nat -> ~ on_boundary t v -> g v * sum_below n (links t v) = sum_below n (fun u => links t v u * g u)) ->
  (forall v, (v < n)%nat -> on_boundary t v -> g v <= c) ->
  (forall v, (v < n)%nat -> reaches_boundary t v) -> forall v, (v < n)%nat -> g v <= c.
Proof.
  intros HT HV HA HB HR v Lv. destruct (sum_max n g ltac:(lia)) as [m [Lm M]].
  apply Rle_trans with (g m); [apply M, Lv|]. destruct (Rle_dec (g m) c) as [H|H]; [exact H|exfalso].
  assert (forall w, reaches_boundary t w -> (w < n)%nat -> g w = g m -> False) as K.
  { induction 1 as [w OB|w u r Hr Hw Hu N RB IH]; intros Lw E.
    - specialize (HB w Lw OB). lra.
    - destruct (Classical_Prop.classic (on_boundary t w)) as [OB|NB]; [specialize (HB w Lw OB); lra|].
      pose proof (HV r u Hr Hu) as Lu. apply IH; [exact Lu|]. specialize (HA w Lw NB).
      assert (sum_below n (fun u => links t w u * (g m - g u)) = 0) as Z.
      { rewrite (sum_ext n _ (fun u => g m * links t w u + (-1) * (links t w u * g u))) by (intros; ring). rewrite sum_plus, !sum_scal, <- HA, E. ring. }
      assert (forall u, (u < n)%nat -> 0 <= links t w u * (g m - g u)) as NN.
      { intros k Lk. apply Rmult_le_pos; [apply links_nonneg|]. specialize (M k Lk). lra. }
      pose proof (sum_zero_terms n _ NN Z u Lu) as Z'. cbv beta in Z'. pose proof (links_pos t w u r Hr Hw Hu N) as LP.
      apply Rmult_integral in Z'. destruct Z'; lra. }
  exact (K m (HR m Lm) Lm eq_refl).
Qed.
Lemma solves_halfplane uniq p t x a b c : uniq_ok uniq -> triangles t -> valid (length p) t -> lap_solves uniq p t x ->
  (forall v, (v < length p)%nat -> reaches_boundary t v) ->
  (forall v, (v < length p)%nat -> on_boundary t v -> a * coord p v 0 + b * coord p v 1 <= c) ->
  forall v, (v < length p)%nat -> a * coord x v 0 + b * coord x v 1 <= c.
Proof.
  intros HU HT HV HS HR HB. apply (max_principle t (length p) (fun v => a * coord x v 0 + b * coord x v 1) c HT HV); [| |exact HR].
  - intros v Lv NB. pose proof (solves_interior uniq p t x v HU HT HV HS Lv NB) as E.
    replace ((a * coord x v 0 + b * coord x v 1) * sum_below (length p) (links t v)) with
      (a * (coord x v 0 * sum_below (length p) (links t v)) + b * (coord x v 1 * sum_below (length p) (links t v))) by ring.
    rewrite !E by lia. rewrite <- !sum_scal, <- sum_plus. apply sum_ext. intros; ring.
  - intros v Lv OB. rewrite !(solves_boundary uniq p t x v HU HT HS Lv OB) by lia. apply HB; assumption.
Qed.
Lemma solves_unique uniq p t x y : uniq_ok uniq -> triangles t -> valid (length p) t ->
  (forall v, (v < length p)%nat -> reaches_boundary t v) -> lap_solves uniq p t x -> lap_solves uniq p t y ->
  forall v j, (v < length p)%nat -> (j < 2)%nat -> coord x v j = coord y v j.
Proof.
  intros HU HT HV HR HX HY.
  assert (forall x y, lap_solves uniq p t x -> lap_solves uniq p t y -> forall j, (j < 2)%nat -> forall v, (v < length p)%nat -> coord x v j - coord y v j <= 0) as K.
  { clear x y HX HY. intros x y HX HY j Lj. apply (max_principle t (length p) (fun v => coord x v j - coord y v j) 0 HT HV); [| |exact HR].
    - intros v Lv NB. rewrite Rmult_minus_distr_r. rewrite (solves_interior uniq p t x v HU HT HV HX Lv NB j Lj), (solves_interior uniq p t y v HU HT HV HY Lv NB j Lj).
      rewrite (sum_ext _ (fun u => links t v u * (coord x u j - coord y u j)) (fun u => links t v u * coord x u j + (-1) * (links t v u * coord y u j))) by (intros; ring).
      rewrite sum_plus, sum_scal. ring.
    - intros v Lv OB. rewrite (solves_boundary uniq p t x v HU HT HX Lv OB j Lj), (solves_boundary uniq p t y v HU HT HY Lv OB j Lj). lra. }
  intros v j Lv Lj. pose proof (K x y HX HY j Lj v Lv). pose proof (K y x HY HX j Lj v Lv). lra.
Qed.
