(** Proofs about the set operations (Union, Intersection, Difference) and their boxes. *)
From Coq Require Import List ZArith Reals Bool Lra Lia Permutation.
From Verif Require Import Model.Base Model.SDF Spec.Geom Spec.Domains Proofs.SDFPrim.
Import ListNotations.
Local Open Scope R_scope.

Lemma Reqb_refl x : Reqb x x = true.
Proof. unfold Reqb. destruct (Req_EM_T x x); congruence. Qed.
Lemma Reqb_neq x y : x <> y -> Reqb x y = false.
Proof. unfold Reqb. destruct (Req_EM_T x y); congruence. Qed.

(** ---- reduce of Rmin / Rmax ---- *)
Lemma fold_min_le l : forall a t, fold_left Rmin l a <= t <-> a <= t \/ Exists (fun x => x <= t) l.
Proof.
  induction l as [|b l IH]; intros a t; cbn [fold_left].
  - split; [tauto|]. intros [H|H]; [exact H|inversion H].
  - rewrite IH, Exists_cons. unfold Rmin. destruct (Rle_dec a b); split; intros [H|H]; try tauto; try (left; lra); try (right; tauto); destruct H; try (left; lra); tauto.
Qed.
Lemma fold_max_le l : forall a t, fold_left Rmax l a <= t <-> a <= t /\ Forall (fun x => x <= t) l.
Proof.
  induction l as [|b l IH]; intros a t; cbn [fold_left].
  - split; [intros H; split; [exact H|constructor]|tauto].
  - rewrite IH, Forall_cons_iff, Rmax_le. tauto.
Qed.
Lemma fold_min_lt l : forall a t, fold_left Rmin l a < t <-> a < t \/ Exists (fun x => x < t) l.
Proof.
  induction l as [|b l IH]; intros a t; cbn [fold_left].
  - split; [tauto|]. intros [H|H]; [exact H|inversion H].
  - rewrite IH, Exists_cons. unfold Rmin. destruct (Rle_dec a b); split; intros [H|H]; try tauto; try (left; lra); try (right; tauto); destruct H; try (left; lra); tauto.
Qed.
Lemma fold_max_lt l : forall a t, fold_left Rmax l a < t <-> a < t /\ Forall (fun x => x < t) l.
Proof.
  induction l as [|b l IH]; intros a t; cbn [fold_left].
  - split; [intros H; split; [exact H|constructor]|tauto].
  - rewrite IH, Forall_cons_iff, Rmax_lt. tauto.
Qed.
Lemma reduce_min_le l t : l <> [] -> (reduce_ Rmin l <= t <-> Exists (fun x => x <= t) l).
Proof. destruct l as [|a l]; [congruence|]. intros _. cbn [reduce_]. rewrite fold_min_le, Exists_cons. tauto. Qed.
Lemma reduce_max_le l t : l <> [] -> (reduce_ Rmax l <= t <-> Forall (fun x => x <= t) l).
Proof. destruct l as [|a l]; [congruence|]. intros _. cbn [reduce_]. rewrite fold_max_le, Forall_cons_iff. tauto. Qed.
Lemma reduce_min_lt l t : l <> [] -> (reduce_ Rmin l < t <-> Exists (fun x => x < t) l).
Proof. destruct l as [|a l]; [congruence|]. intros _. cbn [reduce_]. rewrite fold_min_lt, Exists_cons. tauto. Qed.
Lemma reduce_max_lt l t : l <> [] -> (reduce_ Rmax l < t <-> Forall (fun x => x < t) l).
Proof. destruct l as [|a l]; [congruence|]. intros _. cbn [reduce_]. rewrite fold_max_lt, Forall_cons_iff. tauto. Qed.

Lemma nonempty_set (l m : list R) : l <> [] -> (forall x, In x l <-> In x m) -> m <> [].
Proof. intros Hl H E. subst m. destruct l as [|a l]; [congruence|]. apply (H a). left; reflexivity. Qed.
Lemma reduce_min_set l m : l <> [] -> (forall x, In x l <-> In x m) -> reduce_ Rmin l = reduce_ Rmin m.
Proof.
  intros Hl H. apply rle_ext. intros t. rewrite !reduce_min_le by eauto using nonempty_set.
  rewrite !Exists_exists. split; intros [x [Hx Ht]]; exists x; split; try exact Ht; apply H; exact Hx.
Qed.
Lemma reduce_max_set l m : l <> [] -> (forall x, In x l <-> In x m) -> reduce_ Rmax l = reduce_ Rmax m.
Proof.
  intros Hl H. apply rle_ext. intros t. rewrite !reduce_max_le by eauto using nonempty_set.
  rewrite !Forall_forall. split; intros K x Hx; apply K, H, Hx.
Qed.

(** what a successful constructor returns *)
Lemma set_init_eval eval ds d : set_init eval ds = Ok d -> ds <> [] /\ d_eval d = eval ds.
Proof.
  unfold set_init. destruct ds as [|d0 ds']; [discriminate|]. unfold dims_guard.
  destruct (set_bbox (d_dim d0) 0 (d0 :: ds')) as [b|e]; cbn [rbind]; intros H; inversion H; subst; cbn. split; [discriminate|reflexivity].
Qed.
Lemma map_nonempty {A B} (f : A -> B) l : l <> [] -> map f l <> [].
Proof. destruct l; [congruence|discriminate]. Qed.
Lemma Exists_map' {A B} (f : A -> B) P l : Exists P (map f l) <-> Exists (fun x => P (f x)) l.
Proof. induction l; cbn; [split; intros H; inversion H|]. rewrite !Exists_cons, IHl. reflexivity. Qed.

Lemma union_le k ds d x t : Union k ds = Ok d -> k = 0 -> (d_eval d x <= t <-> Exists (fun o => d_eval o x <= t) ds).
Proof.
  intros H ->. apply set_init_eval in H. destruct H as [Hn ->]. unfold union_vals. rewrite Reqb_refl.
  rewrite reduce_min_le by (apply map_nonempty, Hn). apply Exists_map'.
Qed.
Lemma union_lt k ds d x t : Union k ds = Ok d -> k = 0 -> (d_eval d x < t <-> Exists (fun o => d_eval o x < t) ds).
Proof.
  intros H ->. apply set_init_eval in H. destruct H as [Hn ->]. unfold union_vals. rewrite Reqb_refl.
  rewrite reduce_min_lt by (apply map_nonempty, Hn). apply Exists_map'.
Qed.
Lemma inter_le k ds d x t : Intersection k ds = Ok d -> k = 0 -> (d_eval d x <= t <-> Forall (fun o => d_eval o x <= t) ds).
Proof.
  intros H ->. apply set_init_eval in H. destruct H as [Hn ->]. unfold intersection_vals. rewrite Reqb_refl.
  rewrite reduce_max_le by (apply map_nonempty, Hn). apply Forall_map.
Qed.
Lemma inter_lt k ds d x t : Intersection k ds = Ok d -> k = 0 -> (d_eval d x < t <-> Forall (fun o => d_eval o x < t) ds).
Proof.
  intros H ->. apply set_init_eval in H. destruct H as [Hn ->]. unfold intersection_vals. rewrite Reqb_refl.
  rewrite reduce_max_lt by (apply map_nonempty, Hn). apply Forall_map.
Qed.
Lemma diff_le k o ds d x : Difference k (o :: ds) = Ok d -> k = 0 ->
  (d_eval d x <= 0 <-> d_eval o x <= 0 /\ Forall (fun q => 0 <= d_eval q x) ds).
Proof.
  intros H ->. unfold Difference in H. apply set_init_eval in H. destruct H as [_ ->]. unfold difference_vals. rewrite Reqb_refl. cbn [map].
  rewrite reduce_max_le by discriminate. rewrite Forall_cons_iff, !Forall_map.
  apply and_iff_compat_l. rewrite !Forall_forall. split; intros K q Hq; specialize (K q Hq); lra.
Qed.
Lemma diff_lt k o ds d x : Difference k (o :: ds) = Ok d -> k = 0 ->
  (d_eval d x < 0 <-> d_eval o x < 0 /\ Forall (fun q => 0 < d_eval q x) ds).
Proof.
  intros H ->. unfold Difference in H. apply set_init_eval in H. destruct H as [_ ->]. unfold difference_vals. rewrite Reqb_refl. cbn [map].
  rewrite reduce_max_lt by discriminate. rewrite Forall_cons_iff, !Forall_map.
  apply and_iff_compat_l. rewrite !Forall_forall. split; intros K q Hq; specialize (K q Hq); lra.
Qed.

(** ---- smooth operators ---- *)
Lemma bump_bounds k u : 0 < k -> 0 <= Rmax (k - Rabs u) 0 * Rmax (k - Rabs u) 0 * (1 / 4) / k <= k / 4.
Proof.
  intros Hk. set (h := Rmax (k - Rabs u) 0).
  assert (H0 : 0 <= h) by (unfold h; apply Rmax_r).
  assert (H1 : h <= k) by (unfold h; apply Rmax_lub; [pose proof (Rabs_pos u); lra|lra]).
  assert (H2 : 0 <= h * h) by (apply Rmult_le_pos; assumption).
  assert (H3 : h * h <= k * k) by (apply Rmult_le_compat; assumption).
  clearbody h. split.
  - unfold Rdiv. apply Rmult_le_pos; [lra|]. left. apply Rinv_0_lt_compat. exact Hk.
  - apply (Rmult_le_reg_r k _ _ Hk). unfold Rdiv at 1. rewrite Rmult_assoc, Rinv_l, Rmult_1_r by lra. lra.
Qed.
Lemma bump_zero k u : 0 < k -> k <= Rabs u -> Rmax (k - Rabs u) 0 * Rmax (k - Rabs u) 0 * (1 / 4) / k = 0.
Proof. intros Hk H. rewrite Rmax_right by lra. unfold Rdiv. ring. Qed.

Lemma smooth_union_step k a b : 0 < k -> Rmin a b - k / 4 <= smooth_union k a b <= Rmin a b.
Proof. intros Hk. unfold smooth_union. pose proof (bump_bounds k (a - b) Hk). lra. Qed.
Lemma smooth_inter_step k a b : 0 < k -> Rmax a b <= smooth_intersection k a b <= Rmax a b + k / 4.
Proof. intros Hk. unfold smooth_intersection. pose proof (bump_bounds k (a - b) Hk). lra. Qed.
Lemma smooth_diff_step k a b : 0 < k -> Rmax (- a) b <= smooth_difference k a b <= Rmax (- a) b + k / 4.
Proof. intros Hk. unfold smooth_difference. pose proof (bump_bounds k (- a - b) Hk). lra. Qed.

Lemma smooth_union_fold k l : 0 < k -> forall a s, a <= s -> fold_left (smooth_union k) l a <= fold_left Rmin l s.
Proof.
  intros Hk. induction l as [|b l IH]; intros a s H; cbn [fold_left]; [exact H|].
  apply IH. pose proof (smooth_union_step k a b Hk). apply Rle_trans with (Rmin a b); [lra|].
  apply Rmin_glb; [apply Rle_trans with a; [apply Rmin_l|exact H]|apply Rmin_r].
Qed.
Lemma smooth_union_fold_lo k l : 0 < k -> forall a s c, s - c <= a -> 0 <= c ->
  fold_left Rmin l s - c - INR (length l) * (k / 4) <= fold_left (smooth_union k) l a.
Proof.
  intros Hk. induction l as [|b l IH]; intros a s c H Hc; cbn [fold_left length].
  - cbn [INR]. lra.
  - rewrite S_INR. specialize (IH (smooth_union k a b) (Rmin s b) (c + k / 4)).
    assert (Rmin s b - (c + k / 4) <= smooth_union k a b).
    { pose proof (smooth_union_step k a b Hk) as [L _]. apply Rle_trans with (Rmin a b - k / 4); [|exact L].
      assert (Rmin s b - c <= Rmin a b); [|lra].
      apply Rmin_glb; [pose proof (Rmin_l s b)|pose proof (Rmin_r s b)]; lra. }
    specialize (IH H0 ltac:(lra)). lra.
Qed.
Lemma smooth_inter_fold k l : 0 < k -> forall a s, s <= a -> fold_left Rmax l s <= fold_left (smooth_intersection k) l a.
Proof.
  intros Hk. induction l as [|b l IH]; intros a s H; cbn [fold_left]; [exact H|].
  apply IH. pose proof (smooth_inter_step k a b Hk). apply Rle_trans with (Rmax a b); [|lra].
  apply Rmax_lub; [apply Rle_trans with a; [exact H|apply Rmax_l]|apply Rmax_r].
Qed.
Lemma smooth_inter_fold_hi k l : 0 < k -> forall a s c, a <= s + c -> 0 <= c ->
  fold_left (smooth_intersection k) l a <= fold_left Rmax l s + c + INR (length l) * (k / 4).
Proof.
  intros Hk. induction l as [|b l IH]; intros a s c H Hc; cbn [fold_left length].
  - cbn [INR]. lra.
  - rewrite S_INR. specialize (IH (smooth_intersection k a b) (Rmax s b) (c + k / 4)).
    assert (smooth_intersection k a b <= Rmax s b + (c + k / 4)).
    { pose proof (smooth_inter_step k a b Hk) as [_ L]. apply Rle_trans with (Rmax a b + k / 4); [exact L|].
      assert (Rmax a b <= Rmax s b + c); [|lra].
      apply Rmax_lub; [pose proof (Rmax_l s b)|pose proof (Rmax_r s b)]; lra. }
    specialize (IH H0 ltac:(lra)). lra.
Qed.

Lemma union_smooth_bounds k l : 0 < k -> l <> [] ->
  reduce_ Rmin l - INR (length l - 1) * (k / 4) <= union_vals k l <= reduce_ Rmin l.
Proof.
  intros Hk Hl. unfold union_vals. rewrite Reqb_neq by lra. destruct l as [|a l]; [congruence|]. cbn [reduce_ length].
  replace (S (length l) - 1)%nat with (length l) by lia. split.
  - pose proof (smooth_union_fold_lo k l Hk a a 0 ltac:(lra) ltac:(lra)). lra.
  - apply smooth_union_fold; lra.
Qed.
Lemma inter_smooth_bounds k l : 0 < k -> l <> [] ->
  reduce_ Rmax l <= intersection_vals k l <= reduce_ Rmax l + INR (length l - 1) * (k / 4).
Proof.
  intros Hk Hl. unfold intersection_vals. rewrite Reqb_neq by lra. destruct l as [|a l]; [congruence|]. cbn [reduce_ length].
  replace (S (length l) - 1)%nat with (length l) by lia. split.
  - apply smooth_inter_fold; lra.
  - pose proof (smooth_inter_fold_hi k l Hk a a 0 ltac:(lra) ltac:(lra)). lra.
Qed.
Lemma diff_smooth_bounds2 k a b : 0 < k -> Rmax a (- b) <= difference_vals k [a; b] <= Rmax a (- b) + k / 4.
Proof.
  intros Hk. unfold difference_vals. rewrite Reqb_neq by lra. cbn [rev app reduce_ fold_left].
  rewrite (Rmax_comm a). apply smooth_diff_step. exact Hk.
Qed.

Lemma union_far k a b : 0 < k -> k <= Rabs (a - b) -> union_vals k [a; b] = Rmin a b.
Proof. intros Hk H. unfold union_vals. rewrite Reqb_neq by lra. cbn. unfold smooth_union. rewrite bump_zero by assumption. lra. Qed.
Lemma inter_far k a b : 0 < k -> k <= Rabs (a - b) -> intersection_vals k [a; b] = Rmax a b.
Proof. intros Hk H. unfold intersection_vals. rewrite Reqb_neq by lra. cbn. unfold smooth_intersection. rewrite bump_zero by assumption. lra. Qed.
Lemma diff_far k a b : 0 < k -> k <= Rabs (a + b) -> difference_vals k [a; b] = Rmax a (- b).
Proof.
  intros Hk H. unfold difference_vals. rewrite Reqb_neq by lra. cbn. unfold smooth_difference.
  rewrite bump_zero; [rewrite Rmax_comm; lra|exact Hk|]. replace (- b - a) with (- (a + b)) by ring. rewrite Rabs_Ropp. exact H.
Qed.

(** the first operand bounds a smooth difference from below, for any number of operands *)
Lemma diff_ge_first k a l : 0 < k -> a <= difference_vals k (a :: l).
Proof.
  intros Hk. unfold difference_vals. rewrite Reqb_neq by lra. cbn [rev].
  destruct (rev l) as [|b r]; cbn [app reduce_ fold_left]; [lra|]. rewrite fold_left_app. cbn [fold_left].
  pose proof (smooth_diff_step k (fold_left (smooth_difference k) r b) a Hk) as [H _].
  eapply Rle_trans; [apply Rmax_r|exact H].
Qed.

Lemma diff3 k a b c : 0 < k -> difference_vals k [a; b; c] = smooth_difference k (smooth_difference k c b) a.
Proof. intros Hk. unfold difference_vals. rewrite Reqb_neq by lra. reflexivity. Qed.
(** point deep inside A and deep inside C, outside of B: A-(B-C) contains it *)
Lemma diff3_wrong k : 0 < k -> difference_vals k [-10 * k; 10 * k; -10 * k] < 0 /\ difference_vals 0 [-10 * k; 10 * k; -10 * k] > 0.
Proof.
  intros Hk. split.
  - rewrite diff3 by exact Hk.
    pose proof (smooth_diff_step k (-10 * k) (10 * k) Hk) as [L U].
    rewrite Rmax_left in L, U by lra. set (v := smooth_difference k (-10 * k) (10 * k)) in *.
    pose proof (smooth_diff_step k v (-10 * k) Hk) as [_ U2].
    assert (Rmax (- v) (-10 * k) <= - 9 * k) by (apply Rmax_lub; lra). lra.
  - unfold difference_vals. rewrite Reqb_refl. cbn. apply Rlt_gt.
    apply Rlt_le_trans with (- (-10 * k)); [lra|apply Rmax_r].
Qed.
(** beyond k apart, three operands give exactly A - (B - C) *)
Lemma diff3_far k a b c : 0 < k -> k <= Rabs (b + c) -> k <= Rabs (a + Rmax b (- c)) ->
  difference_vals k [a; b; c] = Rmax a (- Rmax b (- c)).
Proof.
  intros Hk H1 H2. rewrite diff3 by exact Hk.
  pose proof (diff_far k b c Hk H1) as E1. pose proof (diff_far k a (Rmax b (- c)) Hk H2) as E2.
  unfold difference_vals in E1, E2. rewrite Reqb_neq in E1, E2 by lra. cbn in E1, E2. rewrite E1, E2. reflexivity.
Qed.

(** ---- boxes ---- *)
Lemma min_list_le l x : In x l -> min_list l <= x.
Proof.
  induction l as [|a l IH]; [intros []|]. intros H. destruct l as [|b l].
  - destruct H as [-> | []]. cbn. lra.
  - change (min_list (a :: b :: l)) with (Rmin a (min_list (b :: l))). destruct H as [-> | H]; [apply Rmin_l|].
    eapply Rle_trans; [apply Rmin_r|apply IH, H].
Qed.
Lemma max_list_ge l x : In x l -> x <= max_list l.
Proof.
  induction l as [|a l IH]; [intros []|]. intros H. destruct l as [|b l].
  - destruct H as [-> | []]. cbn. lra.
  - change (max_list (a :: b :: l)) with (Rmax a (max_list (b :: l))). destruct H as [-> | H]; [apply Rmax_l|].
    eapply Rle_trans; [apply IH, H|apply Rmax_r].
Qed.
Lemma get_all_in i ds l d : get_all i ds = Some l -> In d ds -> exists x, nth_error (d_bbox d) i = Some x /\ In x l.
Proof.
  revert l. induction ds as [|e ds IH]; intros l H Hd; [destruct Hd|]. cbn in H.
  destruct (nth_error (d_bbox e) i) as [x|] eqn:E; [|discriminate]. cbn in H.
  destruct (get_all i ds) as [m|] eqn:G; [|unfold get_all in G; rewrite G in H; discriminate].
  unfold get_all in G. rewrite G in H. inversion H; subst. destruct Hd as [-> | Hd].
  - exists x. split; [exact E|left; reflexivity].
  - destruct (IH m eq_refl Hd) as [y [Hy Iy]]. exists y. split; [exact Hy|right; exact Iy].
Qed.
Lemma skipn_cons2 {A} (l : list A) i x : nth_error l i = Some x -> skipn i l = x :: skipn (S i) l.
Proof.
  revert l. induction i as [|i IH]; intros [|a l] H; cbn in H; try discriminate.
  - inversion H. reflexivity.
  - cbn [skipn]. rewrite (IH l H). reflexivity.
Qed.
Lemma set_bbox_in n : forall i ds b d x, set_bbox n i ds = Ok b -> In d ds -> length x = n ->
  in_box (skipn (2 * i) (d_bbox d)) x -> in_box b x.
Proof.
  induction n as [|n IH]; intros i ds b d x H Hd Hx HB.
  - inversion H; subst. destruct x; [constructor|discriminate].
  - cbn [set_bbox] in H.
    destruct (get_all (2 * i) ds) as [lo|] eqn:GL; [|discriminate].
    destruct (get_all (2 * i + 1) ds) as [hi|] eqn:GH; [|discriminate].
    destruct (set_bbox n (S i) ds) as [t|e] eqn:ST; [|discriminate]. cbn [rbind] in H. inversion H; subst b.
    destruct (get_all_in _ _ _ _ GL Hd) as [l1 [N1 I1]]. destruct (get_all_in _ _ _ _ GH Hd) as [h1 [N2 I2]].
    rewrite (skipn_cons2 _ _ _ N1) in HB. replace (S (2 * i)) with (2 * i + 1)%nat in HB by lia.
    rewrite (skipn_cons2 _ _ _ N2) in HB. replace (S (2 * i + 1)) with (2 * S i)%nat in HB by lia.
    inversion HB as [|lo' hi' b' x0 p Hr Hb]; subst. constructor.
    + pose proof (min_list_le _ _ I1). pose proof (max_list_ge _ _ I2). lra.
    + apply (IH (S i) ds t d p ST Hd); [cbn in Hx; lia|exact Hb].
Qed.


Lemma set_init_box eval ds d x o : set_init eval ds = Ok d -> (forall o', In o' ds -> d_dim o' = d_dim d) ->
  In o ds -> box_contains o -> d_eval o x <= 0 -> length x = d_dim d -> in_box (d_bbox d) x.
Proof.
  unfold set_init. destruct ds as [|d0 ds']; [discriminate|]. unfold dims_guard.
  destruct (set_bbox (d_dim d0) 0 (d0 :: ds')) as [b|e] eqn:SB; cbn [rbind]; intros H; inversion H; subst d.
  cbn [d_bbox d_dim]. intros Hdim Ho HC Hx HL. apply (set_bbox_in _ _ _ _ o x SB Ho HL). cbn [skipn Nat.mul].
  apply HC; [exact Hx|]. rewrite (Hdim o Ho). exact HL.
Qed.
Lemma union_box ds d : Union 0 ds = Ok d -> (forall o, In o ds -> d_dim o = d_dim d) ->
  (forall o, In o ds -> box_contains o) -> box_contains d.
Proof.
  intros H HD HC x Hx HL. apply (union_le 0 ds d x 0 H eq_refl) in Hx. apply Exists_exists in Hx. destruct Hx as [o [Ho Hx]].
  eapply set_init_box; eauto.
Qed.
Lemma inter_first k ds d x : Intersection k ds = Ok d -> 0 <= k -> d_eval d x <= 0 -> forall o, In o ds -> d_eval o x <= 0.
Proof.
  intros H Hk Hx. pose proof (set_init_eval _ _ _ H) as [Hn E]. rewrite E in Hx.
  assert (reduce_ Rmax (map (fun o => d_eval o x) ds) <= 0) as HM.
  { destruct (Req_EM_T k 0) as [-> | N].
    - unfold intersection_vals in Hx. rewrite Reqb_refl in Hx. exact Hx.
    - pose proof (inter_smooth_bounds k (map (fun o => d_eval o x) ds) ltac:(lra) (map_nonempty _ _ Hn)). lra. }
  apply reduce_max_le in HM; [|apply map_nonempty, Hn]. rewrite Forall_map, Forall_forall in HM. exact HM.
Qed.
Lemma inter_box k ds d : Intersection k ds = Ok d -> 0 <= k -> (forall o, In o ds -> d_dim o = d_dim d) ->
  (exists o, In o ds /\ box_contains o) -> box_contains d.
Proof.
  intros H Hk HD [o [Ho HC]] x Hx HL. pose proof (inter_first k ds d x H Hk Hx o Ho). eapply set_init_box; eauto.
Qed.
Lemma diff_box k o ds d : Difference k (o :: ds) = Ok d -> 0 <= k -> (forall o', In o' (o :: ds) -> d_dim o' = d_dim d) ->
  box_contains o -> box_contains d.
Proof.
  intros H Hk HD HC x Hx HL. eapply (set_init_box _ _ d x o H HD); try assumption; [left; reflexivity|].
  destruct (Req_EM_T k 0) as [-> | N].
  - apply (diff_le 0 o ds d x H eq_refl) in Hx. apply Hx.
  - unfold Difference in H. pose proof (set_init_eval _ _ _ H) as [_ E]. rewrite E in Hx. cbn [map] in Hx.
    pose proof (diff_ge_first k (d_eval o x) (map (fun o' => d_eval o' x) ds) ltac:(lra)). lra.
Qed.

Lemma manipulate_none dim x : manipulate dim no_manip x = x.
Proof. unfold manipulate, no_manip. cbn [m_rot m_trans m_stretch]. rewrite Reqb_refl. reflexivity. Qed.
Lemma disk_eval a b r x y : d_eval (Disk a b r no_manip) [x; y] = sqrt ((x - a) ^ 2 + (y - b) ^ 2) - r.
Proof. unfold Disk, make_prim. cbn [d_eval]. rewrite manipulate_none. reflexivity. Qed.

(** two equal disks, smooth union: the point at distance r + k/4 from the centre is inside but not in the box *)
Lemma smooth_union_escapes r k : 0 <= r -> 0 < k -> exists d, Union k [Disk 0 0 r no_manip; Disk 0 0 r no_manip] = Ok d /\
  d_eval d [r + k / 4; 0] <= 0 /\ ~ in_box (d_bbox d) [r + k / 4; 0] /\
  box_contains (Disk 0 0 r no_manip).
Proof.
  intros Hr Hk.
  assert (d_bbox (Disk 0 0 r no_manip) = [0 - r; 0 + r; 0 - r; 0 + r]) as EB by (cbn; rewrite Reqb_refl; reflexivity).
  unfold Union, set_init, dims_guard. change (d_dim (Disk 0 0 r no_manip)) with 2%nat.
  cbn [set_bbox get_all fold_right]. rewrite EB. cbn [nth_error obind rbind Nat.mul Nat.add].
  eexists. split; [reflexivity|]. split; [|split].
  - cbn [d_eval map]. unfold union_vals. rewrite Reqb_neq by lra. cbn [reduce_ fold_left].
    assert (d_eval (Disk 0 0 r no_manip) [r + k / 4; 0] = k / 4) as ->.
    { rewrite disk_eval. replace ((r + k / 4 - 0) ^ 2 + (0 - 0) ^ 2) with ((r + k / 4) * (r + k / 4)) by ring.
      rewrite sqrt_square by lra. lra. }
    unfold smooth_union. replace (k / 4 - k / 4) with 0 by ring. rewrite Rabs_R0, Rminus_0_r, Rmax_left, Rmin_left by lra.
    right. field. lra.
  - intros H. cbn in H. inversion H as [|? ? ? ? ? Hx _]; subst. destruct Hx as [_ Hx].
    unfold Rmax in Hx. destruct (Rle_dec (0 + r) (0 + r)) in Hx; lra.
  - intros x Hx HL. cbn in HL. destruct x as [|x [|y [|? ?]]]; try discriminate. rewrite disk_eval in Hx. rewrite EB.
    assert (sqrt ((x - 0) ^ 2 + (y - 0) ^ 2) <= r) as H by lra. clear Hx.
    replace ((x - 0) ^ 2 + (y - 0) ^ 2) with (x * x + y * y) in H by ring.
    apply sqrt_sq_le in H; [|apply sq2|exact Hr].
    pose proof (sq_nn x). pose proof (sq_nn y).
    pose proof (sq_bound x r Hr ltac:(lra)). pose proof (sq_bound y r Hr ltac:(lra)).
    apply ib_cons; [lra|]. apply ib_cons; [lra|]. constructor.
Qed.

(** ---- guard ---- *)
Lemma guard_accepts eval d0 ds : (forall d, In d (d0 :: ds) -> (2 * d_dim d0 <= length (d_bbox d))%nat) ->
  exists d, set_init eval (d0 :: ds) = Ok d /\ d_dim d = d_dim d0.
Proof.
  intros H. cbn [set_init]. unfold dims_guard.
  assert (forall i, (i < 2 * d_dim d0)%nat -> exists l, get_all i (d0 :: ds) = Some l) as G.
  { intros i Hi. clear - H Hi. revert H. generalize (d0 :: ds) as l0. induction l0 as [|e l0 IH]; intros H; [exists []; reflexivity|].
    destruct IH as [l Hl]; [intros d Hd; apply H; right; exact Hd|]. cbn.
    destruct (nth_error (d_bbox e) i) as [x|] eqn:E.
    - cbn. unfold get_all in Hl. rewrite Hl. eexists. reflexivity.
    - apply nth_error_None in E. specialize (H e (or_introl eq_refl)). lia. }
  assert (forall n i, (2 * i + 2 * n <= 2 * d_dim d0)%nat -> exists b, set_bbox n i (d0 :: ds) = Ok b) as S.
  { clear H. induction n as [|n IH]; intros i Hi; [exists []; reflexivity|]. cbn [set_bbox].
    destruct (G (2 * i)%nat ltac:(lia)) as [lo ->]. destruct (G (2 * i + 1)%nat ltac:(lia)) as [hi ->].
    destruct (IH (Datatypes.S i) ltac:(lia)) as [t ->]. eexists. reflexivity. }
  destruct (S (d_dim d0) 0%nat ltac:(lia)) as [b ->]. eexists. split; [reflexivity|reflexivity].
Qed.
Lemma guard_index_error eval d0 ds d : d_dim d0 = 3%nat -> In d ds -> length (d_bbox d) = 4%nat ->
  set_init eval (d0 :: ds) = Err IndexError.
Proof.
  intros H3 Hd HL. cbn [set_init]. unfold dims_guard. rewrite H3.
  assert (get_all 4 (d0 :: ds) = None) as G4.
  { assert (In d (d0 :: ds)) as Hd' by (right; exact Hd). revert Hd'. generalize (d0 :: ds) as l.
    induction l as [|e l IH]; [intros []|]. intros [-> | Hi]; unfold get_all; cbn [fold_right].
    - rewrite (proj2 (nth_error_None _ _)) by lia. reflexivity.
    - specialize (IH Hi). unfold get_all in IH. rewrite IH. destruct (nth_error (d_bbox e) 4); reflexivity. }
  assert (set_bbox 1 2 (d0 :: ds) = Err IndexError) as E2 by (cbn [set_bbox]; change (2 * 2)%nat with 4%nat; rewrite G4; reflexivity).
  assert (set_bbox 2 1 (d0 :: ds) = Err IndexError) as E1.
  { change (set_bbox 2 1 (d0 :: ds)) with (match get_all 2 (d0 :: ds), get_all 3 (d0 :: ds) with Some lo, Some hi => rbind (set_bbox 1 2 (d0 :: ds)) (fun t => Ok (min_list lo :: max_list hi :: t)) | _, _ => Err IndexError end).
    rewrite E2. destruct (get_all 2 (d0 :: ds)); [destruct (get_all 3 (d0 :: ds))|]; reflexivity. }
  change (set_bbox 3 0 (d0 :: ds)) with (match get_all 0 (d0 :: ds), get_all 1 (d0 :: ds) with Some lo, Some hi => rbind (set_bbox 2 1 (d0 :: ds)) (fun t => Ok (min_list lo :: max_list hi :: t)) | _, _ => Err IndexError end).
  rewrite E1. destruct (get_all 0 (d0 :: ds)); [destruct (get_all 1 (d0 :: ds))|]; reflexivity.
Qed.
