(** Laplacian smoothing: energy and area. *)
From Coq Require Import List ZArith Reals Bool Arith Lia Lra Permutation.
From Verif Require Import Model.Base Model.SDF Model.Simplex Model.Mesh Model.Laplace Spec.MeshTopo Spec.Smooth Spec.Energy Proofs.ListAux Proofs.MeshAux
  Proofs.EdgeProofs Proofs.TopoProofs Proofs.LaplaceProofs Proofs.LaplaceFixed.
Import ListNotations.
Local Open Scope R_scope.

(** ---- the quadratic form, one coordinate at a time ---- *)
Definition brow (g h : nat -> R) (r : list nat) : R :=
  (g (c0 r) - g (c1 r)) * (h (c0 r) - h (c1 r)) + (g (c1 r) - g (c2 r)) * (h (c1 r) - h (c2 r)) + (g (c2 r) - g (c0 r)) * (h (c2 r) - h (c0 r)).
Definition bform t g h := rtotal (map (brow g h) t).
Lemma rtotal_plus {A} (f g : A -> R) l : rtotal (map (fun x => f x + g x) l) = rtotal (map f l) + rtotal (map g l).
Proof. unfold rtotal. induction l as [|x l IH]; cbn [map fold_right]; [ring|]. rewrite IH. ring. Qed.
Lemma rtotal_scal {A} a (f : A -> R) l : rtotal (map (fun x => a * f x) l) = a * rtotal (map f l).
Proof. unfold rtotal. induction l as [|x l IH]; cbn [map fold_right]; [ring|]. rewrite IH. ring. Qed.
Lemma rtotal_ext {A} (f g : A -> R) l : (forall x, In x l -> f x = g x) -> rtotal (map f l) = rtotal (map g l).
Proof. intros H. unfold rtotal. induction l as [|x l IH]; cbn [map fold_right]; [ring|]. rewrite (H x), IH by (try (left; reflexivity); intros; apply H; right; assumption). ring. Qed.
Lemma rtotal_le {A} (f g : A -> R) l : (forall x, In x l -> f x <= g x) -> rtotal (map f l) <= rtotal (map g l).
Proof.
  intros H. unfold rtotal. induction l as [|x l IH]; cbn [map fold_right]; [lra|]. pose proof (H x (or_introl eq_refl)).
  pose proof (IH (fun y I => H y (or_intror I))). lra.
Qed.
Lemma sum_delta' n a (f : nat -> R) : (a < n)%nat -> sum_below n (fun v => if (v =? a)%nat then f v else 0) = f a.
Proof. intros L. rewrite <- (sum_delta n a f L). apply sum_ext. intros u _. destruct (u =? a)%nat; ring. Qed.
Lemma brow_sum n a b c g h : NoDup [a; b; c] -> (a < n)%nat -> (b < n)%nat -> (c < n)%nat ->
  brow g h [a; b; c] = sum_below n (fun v => h v * rtotal (map (fun u => g v - g u) (nbrs [[a; b; c]] v))).
Proof.
  intros ND La Lb Lc.
  assert (a <> b /\ a <> c /\ b <> c) as [Nab [Nac Nbc]].
  { inversion ND as [|? ? N1 ND1]; subst. inversion ND1 as [|? ? N2 ND2]; subst. cbn in N1, N2. intuition. }
  rewrite (sum_ext n _ (fun v => (if (v =? a)%nat then h v * (g v - g b + (g v - g c)) else 0) + ((if (v =? b)%nat then h v * (g v - g a + (g v - g c)) else 0) +
    (if (v =? c)%nat then h v * (g v - g a + (g v - g b)) else 0)))).
  - rewrite !sum_plus, !sum_delta' by assumption. unfold brow, c0, c1, c2. cbn [nth]. ring.
  - intros v _. unfold nbrs, adj_entries. cbn [flat_map map nth fst snd app filter]. rewrite !(Nat.eqb_sym _ v).
    destruct (Nat.eqb_spec v a) as [->|Na]; [|destruct (Nat.eqb_spec v b) as [->|Nb]; [|destruct (Nat.eqb_spec v c) as [->|Nc]]]; eqbs; unfold rtotal; cbn [map fst snd fold_right]; ring.
Qed.
Lemma bform_sum n t g h : triangles t -> valid n t -> bform t g h = sum_below n (fun v => h v * rtotal (map (fun u => g v - g u) (nbrs t v))).
Proof.
  unfold bform. induction t as [|r t IH]; intros HT HV.
  - unfold nbrs, adj_entries, rtotal. cbn. rewrite (sum_ext n _ (fun _ => 0)); [rewrite sum_zero; reflexivity|]. intros; ring.
  - cbn [map]. change (rtotal (brow g h r :: map (brow g h) t)) with (brow g h r + rtotal (map (brow g h) t)).
    rewrite IH by (first [intros r' H; apply HT; right; exact H|intros r' w H; apply HV; right; exact H]).
    destruct (HT r (or_introl eq_refl)) as [L3 ND]. destruct (row3 r L3) as [a [b [c ->]]].
    rewrite (brow_sum n a b c g h ND) by (apply (HV _ _ (or_introl eq_refl)); cbn; tauto).
    rewrite <- sum_plus. apply sum_ext. intros v _. rewrite (nbrs_cons [a; b; c] t), map_app, rtotal_app. ring.
Qed.
Lemma gap_sum n t g v : triangles t -> valid n t ->
  rtotal (map (fun u => g v - g u) (nbrs t v)) = g v * sum_below n (links t v) - sum_below n (fun u => links t v u * g u).
Proof.
  intros HT HV. rewrite (nbrs_sum n) by assumption. rewrite (sum_ext n _ (fun u => g v * links t v u + (-1) * (links t v u * g u))) by (intros; ring).
  rewrite sum_plus, !sum_scal. ring.
Qed.
(** if q is where g should be for every vertex that moves, the form against the movement is the weighted squared movement *)
Lemma bform_move n t x r : triangles t -> valid n t ->
  (forall v, (v < n)%nat -> r v = 0 \/ (x v - r v) * sum_below n (links t v) = sum_below n (fun u => links t v u * x u)) ->
  bform t x r = sum_below n (fun v => r v * r v * sum_below n (links t v)).
Proof.
  intros HT HV H. rewrite (bform_sum n) by assumption. apply sum_ext. intros v Lv. rewrite (gap_sum n t x v HT HV).
  destruct (H v Lv) as [->|E]; [ring|]. rewrite <- E. ring.
Qed.
(** the weighted squares, triangle by triangle *)
Lemma weight_rows n t s : triangles t -> valid n t ->
  sum_below n (fun v => s v * sum_below n (links t v)) = rtotal (map (fun r => 2 * (s (c0 r) + s (c1 r) + s (c2 r))) t).
Proof.
  intros HT HV. rewrite (sum_ext n _ (fun v => s v * INR (length (nbrs t v)))) by (intros v _; rewrite (nbrs_count n t v HT HV); reflexivity).
  induction t as [|r t IH].
  - unfold nbrs, adj_entries, rtotal. cbn. rewrite (sum_ext n _ (fun _ => 0)); [rewrite sum_zero; reflexivity|]. intros; cbn; ring.
  - cbn [map]. match goal with |- _ = rtotal (?x :: ?l) => change (rtotal (x :: l)) with (x + rtotal l) end.
    rewrite <- IH by (first [intros r' H; apply HT; right; exact H|intros r' w H; apply HV; right; exact H]).
    destruct (HT r (or_introl eq_refl)) as [L3 ND]. destruct (row3 r L3) as [a [b [c ->]]].
    assert (a <> b /\ a <> c /\ b <> c) as [Nab [Nac Nbc]].
    { inversion ND as [|? ? N1 ND1]; subst. inversion ND1 as [|? ? N2 ND2]; subst. cbn in N1, N2. intuition. }
    assert ((a < n)%nat /\ (b < n)%nat /\ (c < n)%nat) as [La [Lb Lc]] by (repeat split; apply (HV _ _ (or_introl eq_refl)); cbn; tauto).
    rewrite (sum_ext n _ (fun v => ((if (v =? a)%nat then 2 * s v else 0) + ((if (v =? b)%nat then 2 * s v else 0) + (if (v =? c)%nat then 2 * s v else 0))) + s v * INR (length (nbrs t v)))).
    + rewrite !sum_plus, !sum_delta' by assumption. unfold c0, c1, c2. cbn [nth]. ring.
    + intros v _. rewrite nbrs_cons, app_length, plus_INR.
      assert (INR (length (nbrs [[a; b; c]] v)) = (if (v =? a)%nat then 2 else 0) + ((if (v =? b)%nat then 2 else 0) + (if (v =? c)%nat then 2 else 0))) as ->.
      { unfold nbrs, adj_entries. cbn [flat_map map nth fst snd app filter]. rewrite !(Nat.eqb_sym _ v).
        destruct (Nat.eqb_spec v a) as [->|Na]; [|destruct (Nat.eqb_spec v b) as [->|Nb]; [|destruct (Nat.eqb_spec v c) as [->|Nc]]]; eqbs; cbn; ring. }
      destruct (v =? a)%nat, (v =? b)%nat, (v =? c)%nat; ring.
Qed.
Definition xy (p : list (list R)) (j v : nat) : R := coord p v j.
Lemma energy_form t p : energy t p = bform t (xy p 0) (xy p 0) + bform t (xy p 1) (xy p 1).
Proof.
  unfold energy, add_up, bform. fold (rtotal (map (sides2 p) t)). rewrite <- rtotal_plus. apply rtotal_ext. intros r _.
  unfold sides2, brow, gap2, xy, coord. ring.
Qed.
Lemma form_drop t x r : bform t x x - bform t (fun v => x v - r v) (fun v => x v - r v) = 2 * bform t x r - bform t r r.
Proof.
  unfold bform. assert (rtotal (map (brow (fun v => x v - r v) (fun v => x v - r v)) t) = rtotal (map (fun k => brow x x k + ((-2) * brow x r k + brow r r k)) t)) as ->.
  { apply rtotal_ext. intros k _. unfold brow. ring. }
  rewrite rtotal_plus, rtotal_plus, (rtotal_scal (-2)). ring.
Qed.
Lemma form_ext t g h g' h' : (forall r v, In r t -> In v r -> g v = g' v) -> (forall r v, In r t -> In v r -> h v = h' v) -> triangles t -> bform t g h = bform t g' h'.
Proof.
  intros G H HT. apply rtotal_ext. intros r I. destruct (HT r I) as [L3 _]. destruct (row3 r L3) as [a [b [c ->]]]. unfold brow, c0, c1, c2. cbn [nth].
  rewrite !(G _ _ I), !(H _ _ I) by (cbn; tauto). reflexivity.
Qed.
(** one step, one coordinate: the drop is the sum of (r_a + r_b)^2 over the sides *)
Definition pair2 (r : nat -> R) (k : list nat) : R := (r (c0 k) + r (c1 k)) ^ 2 + (r (c1 k) + r (c2 k)) ^ 2 + (r (c2 k) + r (c0 k)) ^ 2.
Lemma drop_one n t x r : triangles t -> valid n t ->
  (forall v, (v < n)%nat -> r v = 0 \/ (x v - r v) * sum_below n (links t v) = sum_below n (fun u => links t v u * x u)) ->
  bform t x x - bform t (fun v => x v - r v) (fun v => x v - r v) = rtotal (map (pair2 r) t).
Proof.
  intros HT HV H. rewrite form_drop, (bform_move n t x r HT HV H), (weight_rows n t (fun v => r v * r v) HT HV).
  unfold bform. replace (rtotal (map (brow r r) t)) with (- (-1 * rtotal (map (brow r r) t))) by ring. rewrite <- (rtotal_scal (-1)), <- (rtotal_scal 2).
  unfold Rminus at 1. rewrite Ropp_involutive, <- rtotal_plus. apply rtotal_ext. intros k _. unfold pair2, brow. ring.
Qed.
Lemma step_drop t F p q : triangles t -> valid (length p) t -> (forall v, F v \/ ~ F v) -> averaging_step t F p q ->
  energy t p - energy t q = rtotal (map (pair2 (fun v => coord p v 0 - coord q v 0)) t) + rtotal (map (pair2 (fun v => coord p v 1 - coord q v 1)) t).
Proof.
  intros HT HV FD [LQ ST]. rewrite !energy_form.
  assert (forall j, (j < 2)%nat -> bform t (xy p j) (xy p j) - bform t (xy q j) (xy q j) = rtotal (map (pair2 (fun v => coord p v j - coord q v j)) t)) as K.
  { intros j Lj. rewrite <- (drop_one (length p) t (xy p j) (fun v => coord p v j - coord q v j) HT HV).
    - apply (f_equal (Rminus _)). apply form_ext; [..|exact HT]; intros; unfold xy; ring.
    - intros v Lv. destruct (ST v Lv) as [_ [A B]]. destruct (FD v) as [Fv|Fv].
      + left. unfold coord. rewrite (A Fv). ring.
      + right. destruct (B Fv) as [_ E]. unfold xy. rewrite <- (E j Lj). ring. }
  rewrite <- (K 0%nat), <- (K 1%nat) by lia. ring.
Qed.
Lemma step_energy t F p q : triangles t -> valid (length p) t -> (forall v, F v \/ ~ F v) -> averaging_step t F p q ->
  energy t q + movement t p q <= energy t p.
Proof.
  intros HT HV FD ST. pose proof (step_drop t F p q HT HV FD ST) as E. rewrite <- rtotal_plus in E.
  assert (movement t p q <= energy t p - energy t q); [|lra]. rewrite E. apply (rtotal_le (moved2 p q)). intros r _.
  unfold moved2, pair2, gap2, coord.
  set (a := nth 0 (nth (c0 r) p []) 0 - nth 0 (nth (c0 r) q []) 0). set (b := nth 0 (nth (c1 r) p []) 0 - nth 0 (nth (c1 r) q []) 0).
  set (c := nth 0 (nth (c2 r) p []) 0 - nth 0 (nth (c2 r) q []) 0). set (a' := nth 1 (nth (c0 r) p []) 0 - nth 1 (nth (c0 r) q []) 0).
  set (b' := nth 1 (nth (c1 r) p []) 0 - nth 1 (nth (c1 r) q []) 0). set (c' := nth 1 (nth (c2 r) p []) 0 - nth 1 (nth (c2 r) q []) 0).
  pose proof (pow2_ge_0 (a + b + c)). pose proof (pow2_ge_0 (a' + b' + c')).
  replace ((a + b) ^ 2 + (b + c) ^ 2 + (c + a) ^ 2 + ((a' + b') ^ 2 + (b' + c') ^ 2 + (c' + a') ^ 2)) with
    (a ^ 2 + a' ^ 2 + (b ^ 2 + b' ^ 2) + (c ^ 2 + c' ^ 2) + ((a + b + c) ^ 2 + (a' + b' + c') ^ 2)) by ring. lra.
Qed.
Lemma gap2_nonneg a b : 0 <= gap2 a b.
Proof. unfold gap2. pose proof (pow2_ge_0 (nth 0 a 0 - nth 0 b 0)). pose proof (pow2_ge_0 (nth 1 a 0 - nth 1 b 0)). lra. Qed.
Lemma moved2_nonneg p q r : 0 <= moved2 p q r.
Proof. unfold moved2. pose proof (gap2_nonneg (nth (c0 r) p []) (nth (c0 r) q [])). pose proof (gap2_nonneg (nth (c1 r) p []) (nth (c1 r) q [])). pose proof (gap2_nonneg (nth (c2 r) p []) (nth (c2 r) q [])). lra. Qed.
Lemma movement_nonneg t p q : 0 <= movement t p q.
Proof.
  unfold movement, add_up. fold (rtotal (map (moved2 p q) t)). pose proof (rtotal_le (fun _ => 0) (moved2 p q) t (fun r _ => moved2_nonneg p q r)) as H.
  pose proof (rtotal_scal 0 (moved2 p q) t) as Z. rewrite (rtotal_ext _ (fun _ => 0)) in Z by (intros; ring). lra.
Qed.
Lemma movement_zero t p q : triangles t -> movement t p q <= 0 -> forall r v, In r t -> In v r -> gap2 (nth v p []) (nth v q []) = 0.
Proof.
  intros HT. induction t as [|r0 t IH]; intros H r v I Iv; [destruct I|].
  unfold movement, add_up in H. cbn [map fold_right] in H. fold (add_up (map (moved2 p q) t)) in H. fold (movement t p q) in H.
  pose proof (movement_nonneg t p q). pose proof (moved2_nonneg p q r0). destruct I as [->|I].
  - destruct (HT r (or_introl eq_refl)) as [L3 _]. destruct (row3 r L3) as [a [b [c ->]]].
    assert (moved2 p q [a; b; c] = 0) as Z by lra. unfold moved2, c0, c1, c2 in Z. cbn [nth] in Z.
    pose proof (gap2_nonneg (nth a p []) (nth a q [])). pose proof (gap2_nonneg (nth b p []) (nth b q [])). pose proof (gap2_nonneg (nth c p []) (nth c q [])).
    destruct Iv as [<-|[<-|[<-|[]]]]; lra.
  - apply (IH (fun r' I' => HT r' (or_intror I')) ltac:(lra) r v I Iv).
Qed.
Lemma steps_energy t F k p q : triangles t -> valid (length p) t -> (forall v, F v \/ ~ F v) -> steps t F k p q -> energy t q <= energy t p.
Proof.
  intros HT HV FD ST. induction ST as [p|k p q r S1 _ IH]; [lra|]. pose proof (step_energy t F p q HT HV FD S1). pose proof (movement_nonneg t p q).
  destruct S1 as [L _]. rewrite <- L in HV. specialize (IH HV). lra.
Qed.
Lemma gap2_zero a b : length a = 2%nat -> length b = 2%nat -> gap2 a b = 0 -> a = b.
Proof.
  destruct a as [|x [|y [|]]]; try discriminate. destruct b as [|x' [|y' [|]]]; try discriminate. intros _ _. unfold gap2. cbn [nth]. intros H.
  pose proof (pow2_ge_0 (x - x')). pose proof (pow2_ge_0 (y - y')). assert ((x - x') ^ 2 = 0) by lra. assert ((y - y') ^ 2 = 0) by lra.
  assert (x - x' = 0) by (apply Rsqr_0_uniq; unfold Rsqr; lra). assert (y - y' = 0) by (apply Rsqr_0_uniq; unfold Rsqr; lra).
  f_equal; [lra|]. f_equal. lra.
Qed.
(** no decrease over any number of steps: nothing has moved *)
Lemma steps_energy_strict t F k p q : triangles t -> valid (length p) t -> (forall v, F v \/ ~ F v) -> (forall v, (v < length p)%nat -> exists r, In r t /\ In v r) ->
  (forall x, In x p -> length x = 2%nat) -> steps t F k p q -> energy t p <= energy t q -> q = p.
Proof.
  intros HT HV FD U P2 ST. induction ST as [p|k p q r S1 SR IH]; [reflexivity|]. intros E.
  pose proof (step_energy t F p q HT HV FD S1) as D. pose proof (movement_nonneg t p q) as N.
  assert (valid (length q) t) as HVq by (rewrite (proj1 S1); exact HV). pose proof (steps_energy t F k q r HT HVq FD SR) as D2.
  assert (q = p) as EQ.
  { destruct S1 as [L S1]. apply (nth_ext _ _ [] []); [exact L|]. intros v Lv. rewrite L in Lv. destruct (U v Lv) as [k0 [I0 I1]]. symmetry. apply gap2_zero.
    - apply P2, nth_In, Lv.
    - apply (S1 v Lv).
    - apply (movement_zero t p q HT ltac:(lra) k0 v I0 I1). }
  subst q. apply IH; try assumption. 
Qed.

(** ---- the direct solution is the minimum ---- *)
Lemma bform_sym_nonneg t h : 0 <= bform t h h.
Proof.
  unfold bform. pose proof (rtotal_le (fun _ => 0) (brow h h) t) as H. pose proof (rtotal_scal 0 (brow h h) t) as Z. rewrite (rtotal_ext _ (fun _ => 0)) in Z by (intros; ring).
  assert (forall r, In r t -> 0 <= brow h h r) as K; [|specialize (H K); lra]. intros r _. unfold brow.
  pose proof (pow2_ge_0 (h (c0 r) - h (c1 r))). pose proof (pow2_ge_0 (h (c1 r) - h (c2 r))). pose proof (pow2_ge_0 (h (c2 r) - h (c0 r))). lra.
Qed.
Lemma solution_minimum uniq p t x y : uniq_ok uniq -> triangles t -> valid (length p) t -> lap_solves uniq p t x -> same_boundary t y p -> energy t x <= energy t y.
Proof.
  intros HU HT HV HS SB. rewrite !energy_form.
  assert (forall j, (j < 2)%nat -> bform t (xy x j) (xy x j) <= bform t (xy y j) (xy y j)) as K.
  { intros j Lj. set (h := fun v => xy x j v - xy y j v).
    pose proof (form_drop t (xy x j) h) as D. rewrite (form_ext t (fun v => xy x j v - h v) (fun v => xy x j v - h v) (xy y j) (xy y j)) in D by (try exact HT; intros; unfold h; ring).
    assert (bform t (xy x j) h = 0) as Z.
    { rewrite (bform_sum (length p)) by assumption. rewrite <- (sum_zero (length p)). apply sum_ext. intros v Lv. rewrite (gap_sum (length p) t (xy x j) v HT HV).
      destruct (Classical_Prop.classic (on_boundary t v)) as [B|B].
      - unfold h, xy. rewrite (solves_boundary uniq p t x v HU HT HS Lv B j Lj), (SB v B j Lj). ring.
      - pose proof (solves_interior uniq p t x v HU HT HV HS Lv B j Lj) as E. unfold xy. rewrite <- E. ring. }
    rewrite Z in D. pose proof (bform_sym_nonneg t h). lra. }
  pose proof (K 0%nat ltac:(lia)). pose proof (K 1%nat ltac:(lia)). lra.
Qed.

(** ---- area ---- *)
Definition turn (e : nat * nat) : nat * nat := (snd e, fst e).
Definition cross (p : list (list R)) (e : nat * nat) : R := (coord p (fst e) 0 * coord p (snd e) 1 - coord p (snd e) 0 * coord p (fst e) 1) / 2.
Lemma area_cross p r : area p r = rtotal (map (cross p) (sides r)).
Proof. unfold area, sides, rtotal, cross. cbn [map fold_right fst snd]. field. Qed.
Lemma total_area_cross t p : total_area t p = rtotal (map (cross p) (flat_map sides t)).
Proof.
  unfold total_area, add_up. induction t as [|r t IH]; [reflexivity|]. cbn [map fold_right flat_map]. rewrite IH, map_app, rtotal_app, area_cross. reflexivity.
Qed.
Lemma rtotal_perm l l' : Permutation l l' -> rtotal l = rtotal l'.
Proof. unfold rtotal. induction 1; cbn [fold_right]; [reflexivity|congruence|ring|congruence]. Qed.
Lemma edge_eq_dec : forall x y : nat * nat, {x = y} + {x <> y}.
Proof. decide equality; apply Nat.eq_dec. Qed.
Definition paired (E : list (nat * nat)) (e : nat * nat) : bool := if in_dec edge_eq_dec (turn e) E then true else false.
Lemma turn_turn e : turn (turn e) = e.
Proof. destruct e; reflexivity. Qed.
Lemma paired_zero E f : NoDup E -> (forall e, f (turn e) = - f e) -> rtotal (map f (filter (paired E) E)) = 0.
Proof.
  intros ND HF. set (P := filter (paired E) E).
  assert (forall e, In e P <-> In e E /\ In (turn e) E) as MP.
  { intros e. unfold P. rewrite filter_In. unfold paired. destruct (in_dec edge_eq_dec (turn e) E); intuition discriminate. }
  assert (Permutation (map turn P) P) as PE.
  { apply NoDup_Permutation.
    - apply FinFun.Injective_map_NoDup; [intros a b H; rewrite <- (turn_turn a), H; apply turn_turn|apply NoDup_filter, ND].
    - apply NoDup_filter, ND.
    - intros e. rewrite in_map_iff, MP. split.
      + intros [e' [<- I]]. apply MP in I. rewrite turn_turn. tauto.
      + intros I. exists (turn e). rewrite turn_turn. split; [reflexivity|]. apply MP. rewrite turn_turn. tauto. }
  pose proof (rtotal_perm _ _ (Permutation_map f PE)) as H. rewrite map_map in H.
  rewrite (rtotal_ext (fun x => f (turn x)) (fun x => (-1) * f x)) in H by (intros; rewrite HF; ring). rewrite rtotal_scal in H. lra.
Qed.
Lemma rtotal_split {A} (b : A -> bool) (f : A -> R) l : rtotal (map f l) = rtotal (map f (filter b l)) + rtotal (map f (filter (fun x => negb (b x)) l)).
Proof.
  unfold rtotal. induction l as [|x l IH]; cbn [map filter fold_right]; [ring|]. destruct (b x); cbn [negb map fold_right]; rewrite IH; ring.
Qed.
(** number of triangles on two vertices = number of directed sides between them *)
Lemma on_sides t a b : triangles t -> a <> b ->
  entities_on [a; b] t = (count_occ edge_eq_dec (flat_map sides t) (a, b) + count_occ edge_eq_dec (flat_map sides t) (b, a))%nat.
Proof.
  intros HT N. induction t as [|r t IH]; [reflexivity|]. cbn [flat_map]. rewrite !count_occ_app.
  assert (entities_on [a; b] (r :: t) = ((if forallb (has r) [a; b] then 1 else 0) + entities_on [a; b] t)%nat) as ->.
  { unfold entities_on. cbn [filter]. destruct (forallb (has r) [a; b]); reflexivity. }
  rewrite IH by (intros r' I; apply HT; right; exact I).
  destruct (HT r (or_introl eq_refl)) as [L3 ND]. destruct (row3 r L3) as [x [y [z ->]]].
  assert (x <> y /\ x <> z /\ y <> z) as [Nab [Nac Nbc]].
  { inversion ND as [|? ? N1 ND1]; subst. inversion ND1 as [|? ? N2 ND2]; subst. cbn in N1, N2. intuition. }
  enough ((if forallb (has [x; y; z]) [a; b] then 1 else 0) = count_occ edge_eq_dec (sides [x; y; z]) (a, b) + count_occ edge_eq_dec (sides [x; y; z]) (b, a))%nat by lia.
  unfold sides, c0, c1, c2. cbn [nth count_occ forallb]. unfold has. cbn [existsb].
  assert (forall u v w s (m : nat), (if edge_eq_dec (u, v) (w, s) then Datatypes.S m else m) = if ((w =? u)%nat && (s =? v)%nat)%bool then Datatypes.S m else m) as D.
  { intros u v w s m. destruct (edge_eq_dec (u, v) (w, s)) as [Eq|Ne].
    - injection Eq as -> ->. rewrite !Nat.eqb_refl. reflexivity.
    - destruct (Nat.eqb_spec w u) as [->|]; [|reflexivity]. destruct (Nat.eqb_spec s v) as [->|]; [congruence|reflexivity]. }
  rewrite !D.
  destruct (Nat.eqb_spec a x), (Nat.eqb_spec a y), (Nat.eqb_spec a z); try (exfalso; congruence);
  destruct (Nat.eqb_spec b x), (Nat.eqb_spec b y), (Nat.eqb_spec b z); try (exfalso; congruence); reflexivity.
Qed.
Lemma unpaired_boundary t e : triangles t -> coherent t -> In e (flat_map sides t) -> ~ In (turn e) (flat_map sides t) -> on_boundary t (fst e) /\ on_boundary t (snd e).
Proof.
  intros HT CO I NI. destruct e as [a b]. unfold turn in NI. cbn [fst snd] in *.
  assert (a <> b) as N.
  { apply in_flat_map in I. destruct I as [r [Hr I]]. destruct (HT r Hr) as [L3 ND]. destruct (row3 r L3) as [x [y [z ->]]].
    inversion ND as [|? ? N1 ND1]; subst. inversion ND1 as [|? ? N2 ND2]; subst. cbn in N1, N2. unfold sides, c0, c1, c2 in I. cbn in I.
    destruct I as [I|[I|[I|[]]]]; injection I as <- <-; intuition congruence. }
  pose proof (on_sides t a b HT N) as C. rewrite (proj1 (NoDup_count_occ' edge_eq_dec _) CO _ I) in C.
  rewrite (proj1 (count_occ_not_In edge_eq_dec _ _) NI) in C.
  assert (entities_on [b; a] t = 1%nat) as C'.
  { transitivity (entities_on [a; b] t); [|rewrite C; reflexivity]. unfold entities_on. f_equal. apply filter_ext. intros r. cbn [forallb]. rewrite !andb_true_r. apply andb_comm. }
  destruct (Nat.lt_trichotomy a b) as [L|[L|L]]; [|contradiction|].
  - split; exists [a; b]; (split; [cbn; tauto|]); (split; [reflexivity|]); (split; [exact C|cbn; tauto]).
  - split; exists [b; a]; (split; [cbn; tauto|]); (split; [reflexivity|]); (split; [exact C'|cbn; tauto]).
Qed.
Lemma same_area t p q : triangles t -> coherent t -> same_boundary t p q -> total_area t p = total_area t q.
Proof.
  intros HT CO SB. rewrite !total_area_cross. set (E := flat_map sides t). rewrite !(rtotal_split (paired E) (cross _) E).
  rewrite !paired_zero by (try exact CO; intros e; unfold cross, turn; cbn [fst snd]; field). f_equal. apply rtotal_ext. intros e I.
  apply filter_In in I. destruct I as [I P]. unfold paired in P. destruct (in_dec edge_eq_dec (turn e) E) as [|NI]; [discriminate|].
  destruct (unpaired_boundary t e HT CO I NI) as [Ba Bb]. unfold cross. rewrite !(SB _ Ba), !(SB _ Bb) by lia. reflexivity.
Qed.
