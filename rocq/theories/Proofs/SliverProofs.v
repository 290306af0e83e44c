(** What a round of sliver_removal does: the direction of the move, the step, the history of a call. *)
From Coq Require Import Reals List Arith Bool Lra Lia Sorted.
From Verif Require Import Model.Base Model.SDF Model.Simplex Model.Mesh Model.Formulas Model.Laplace Model.Forces Model.Newton Model.Dihedral Model.Generator Spec.Linear.
From Verif Require Import Proofs.ListAux Proofs.MeshAux Proofs.DihedralProofs Proofs.ForceProofs Proofs.FormulaProofs Proofs.CircumProofs.
Import ListNotations.
Local Open Scope R_scope.

(** ---- direction ---- *)
Lemma list3 (a b c a' b' c' : R) : a = a' -> b = b' -> c = c' -> [a; b; c] = [a'; b'; c'].
Proof. intros -> -> ->. reflexivity. Qed.
Lemma grad_core x1 y1 z1 x2 y2 z2 x3 y3 z3 cx cy cz : va x1 y1 z1 x2 y2 z2 x3 y3 z3 <> 0 ->
  sq x1 y1 z1 = 2 * (x1 * cx + y1 * cy + z1 * cz) -> sq x2 y2 z2 = 2 * (x2 * cx + y2 * cy + z2 * cz) -> sq x3 y3 z3 = 2 * (x3 * cx + y3 * cy + z3 * cz) ->
  circumsphere_grad [x1; y1; z1] [x2; y2; z2] [x3; y3; z3] [0; 0; 0] =
  let k := 2 * (va cx cy cz x2 y2 z2 x3 y3 z3 / va x1 y1 z1 x2 y2 z2 x3 y3 z3) in [k * (x1 - cx); k * (y1 - cy); k * (z1 - cz)].
Proof.
  intros N E1 E2 E3. cbn [circumsphere_grad]. rewrite !Rminus_0_r. fold (sq x1 y1 z1) (sq x2 y2 z2) (sq x3 y3 z3). rewrite E1, E2, E3. cbv zeta.
  unfold va in *. apply list3; field; exact N.
Qed.
Lemma grad_shift a b c d e f g h i x y z : 
  circumsphere_grad [a; b; c] [d; e; f] [g; h; i] [x; y; z] = circumsphere_grad [a - x; b - y; c - z] [d - x; e - y; f - z] [g - x; h - y; i - z] [0; 0; 0].
Proof. cbn [circumsphere_grad]. rewrite !Rminus_0_r. reflexivity. Qed.

Lemma grad_radial p0 p1 p2 p3 c r : simplex_points 3 [p0; p1; p2; p3] -> simp_vol [p0; p1; p2; p3] <> 0 -> circumscribed [p0; p1; p2; p3] c r ->
  circumsphere_grad p0 p1 p2 p3 = vtimes (2 * (simp_vol [c; p1; p2; p3] / simp_vol [p0; p1; p2; p3])) (vplus p0 (vtimes (-1) c)).
Proof.
  intros H N C. destruct H as [_ HF]. unfold circumscribed in C. rewrite Forall_forall in C.
  destruct (C p0) as [L0 E0]; [cbn; tauto|]. destruct (C p1) as [_ E1]; [cbn; tauto|]. destruct (C p2) as [_ E2]; [cbn; tauto|]. destruct (C p3) as [_ E3]; [cbn; tauto|]. clear C.
  repeat match goal with H : List.Forall _ (_ :: _) |- _ => inversion H; subst; clear H end.
  len_list p0. len_list p1. len_list p2. len_list p3. cbn [length] in L0. destruct c as [|cx [|cy [|cz [|? ?]]]]; try discriminate L0. clear L0.
  rename r0 into p0x, r1 into p0y, r2 into p0z. 
  rewrite vol_va in N.
  match goal with N : - va ?a ?b ?c ?d ?e ?f ?g ?h ?i / 6 <> 0 |- _ => assert (va a b c d e f g h i <> 0) as N0 by (intros K; apply N; rewrite K; lra) end.
  rewrite !vol_va, grad_shift. cbn [sqnorm_diff] in *.
  match goal with N0 : va ?a ?b ?c ?d ?e ?f (?g - ?x) (?h - ?y) (?i - ?z) <> 0 |- _ => rewrite (grad_core a b c d e f (g - x) (h - y) (i - z) (cx - x) (cy - y) (cz - z));
    [|exact N0|unfold sq; lra..] end.
  cbv zeta. unfold vtimes. cbn [map vplus]. apply list3; field; exact N0.
Qed.

(** the direction has length one and lies on the radius *)
Definition pdir (p0 p1 p2 p3 : list R) : list R :=
  let g := circumsphere_grad p0 p1 p2 p3 in let n := sqrt (rtotal (map (fun x => Rabs x ^ 2) g)) in map (fun x => x / n) g.
Lemma rad_pos p0 p1 p2 p3 c r : simplex_points 3 [p0; p1; p2; p3] -> simp_vol [p0; p1; p2; p3] <> 0 -> circumscribed [p0; p1; p2; p3] c r -> 0 < r.
Proof.
  intros H N C. unfold circumscribed in C. rewrite Forall_forall in C. destruct H as [_ HF].
  destruct (C p0) as [L0 E0]; [cbn; tauto|]. destruct (C p1) as [_ E1]; [cbn; tauto|]. clear C.
  repeat match goal with H : List.Forall _ (_ :: _) |- _ => inversion H; subst; clear H end.
  len_list p0. len_list p1. len_list p2. len_list p3. cbn [length] in L0. destruct c as [|cx [|cy [|cz [|? ?]]]]; try discriminate L0. clear L0.
  cbn [sqnorm_diff] in *. destruct (Rle_lt_dec ((r - cx) ^ 2 + ((r0 - cy) ^ 2 + ((r1 - cz) ^ 2 + 0))) 0) as [Q|Q]; [exfalso|exact Q].
  assert (forall a b c : R, a ^ 2 + (b ^ 2 + (c ^ 2 + 0)) <= 0 -> a = 0 /\ b = 0 /\ c = 0) as Z.
  { intros a b d K. assert (a * a <= 0 /\ b * b <= 0 /\ d * d <= 0) as (A & B & D) by (pose proof (Rle_0_sqr a); pose proof (Rle_0_sqr b); pose proof (Rle_0_sqr d); unfold Rsqr in *; repeat split; lra).
    repeat split; apply Rsqr_0_uniq; unfold Rsqr; pose proof (Rle_0_sqr a); pose proof (Rle_0_sqr b); pose proof (Rle_0_sqr d); unfold Rsqr in *; lra. }
  destruct (Z _ _ _ Q) as (A & B & D). rewrite <- E1 in Q. destruct (Z _ _ _ Q) as (A' & B' & D').
  apply N. replace r2 with r by lra. replace r3 with r0 by lra. replace r4 with r1 by lra. cbn. field.
Qed.
Lemma pdir_radial p0 p1 p2 p3 c r : simplex_points 3 [p0; p1; p2; p3] -> simp_vol [p0; p1; p2; p3] <> 0 -> circumscribed [p0; p1; p2; p3] c r ->
  (0 < simp_vol [c; p1; p2; p3] * simp_vol [p0; p1; p2; p3] -> pdir p0 p1 p2 p3 = vtimes (1 / sqrt r) (vplus p0 (vtimes (-1) c))) /\
  (simp_vol [c; p1; p2; p3] * simp_vol [p0; p1; p2; p3] < 0 -> pdir p0 p1 p2 p3 = vtimes (- 1 / sqrt r) (vplus p0 (vtimes (-1) c))).
Proof.
  intros H N C. pose proof (rad_pos _ _ _ _ _ _ H N C) as RP. unfold pdir. rewrite (grad_radial _ _ _ _ _ _ H N C).
  unfold circumscribed in C. rewrite Forall_forall in C. destruct H as [_ HF]. destruct (C p0) as [L0 E0]; [cbn; tauto|]. clear C.
  set (V := simp_vol [p0; p1; p2; p3]) in *. set (W := simp_vol [c; p1; p2; p3]) in *. clearbody V W.
  repeat match goal with H : List.Forall _ (_ :: _) |- _ => inversion H; subst; clear H end. clear - N L0 RP H1.
  len_list p0. destruct c as [|cx [|cy [|cz [|? ?]]]]; try discriminate L0. cbn [sqnorm_diff] in *.
  unfold vtimes. cbn [map vplus]. set (k := 2 * (W / V)). unfold rtotal. cbn [fold_right].
  set (rr := _ + (_ + (_ + 0))) in RP.
  assert (sqrt (Rabs (k * (r + -1 * cx)) ^ 2 + (Rabs (k * (r0 + -1 * cy)) ^ 2 + (Rabs (k * (r1 + -1 * cz)) ^ 2 + 0))) = Rabs k * sqrt rr) as ->.
  { rewrite <- (sqrt_Rsqr_abs k), <- sqrt_mult_alt by apply Rle_0_sqr. f_equal. unfold Rsqr, rr. rewrite !pow2_abs. ring. }
  assert (0 < sqrt rr) by (apply sqrt_lt_R0, RP).
  fold rr. split; intros S.
  - assert (0 < k) as K. { unfold k. replace (2 * (W / V)) with (2 * (W * V) / (V * V)) by (field; exact N). apply Rdiv_lt_0_compat; [lra|]. destruct (Rlt_le_dec 0 V); nra. }
    rewrite (Rabs_right k) by lra. apply list3; field; split; lra.
  - assert (k < 0) as K. { assert (0 < - k); [|lra]. unfold k. replace (- (2 * (W / V))) with (2 * (- (W * V)) / (V * V)) by (field; exact N). apply Rdiv_lt_0_compat; [lra|]. destruct (Rlt_le_dec 0 V); nra. }
    rewrite (Rabs_left k) by lra. apply list3; field; split; lra.
Qed.
(** the direction is 0/0 exactly when the circumcentre lies in the plane of the opposite face *)
Lemma grad_zero p0 p1 p2 p3 c r : simplex_points 3 [p0; p1; p2; p3] -> simp_vol [p0; p1; p2; p3] <> 0 -> circumscribed [p0; p1; p2; p3] c r ->
  (circumsphere_grad p0 p1 p2 p3 = [0; 0; 0] <-> simp_vol [c; p1; p2; p3] = 0).
Proof.
  intros H N C. pose proof (rad_pos _ _ _ _ _ _ H N C) as RP. rewrite (grad_radial _ _ _ _ _ _ H N C).
  unfold circumscribed in C. rewrite Forall_forall in C. destruct H as [_ HF]. destruct (C p0) as [L0 E0]; [cbn; tauto|]. clear C.
  set (V := simp_vol [p0; p1; p2; p3]) in *. set (W := simp_vol [c; p1; p2; p3]) in *. clearbody V W.
  repeat match goal with H : List.Forall _ (_ :: _) |- _ => inversion H; subst; clear H end. clear - N L0 RP H1.
  len_list p0. destruct c as [|cx [|cy [|cz [|? ?]]]]; try discriminate L0. cbn [sqnorm_diff] in *. unfold vtimes. cbn [map vplus].
  assert (W = 0 <-> 2 * (W / V) = 0) as EW.
  { split; intros Q; [rewrite Q; field; exact N|]. replace W with (2 * (W / V) * (V / 2)) by (field; exact N). rewrite Q. ring. }
  rewrite EW. set (k := 2 * (W / V)) in *. clearbody k. clear EW. split; intros Q; [|rewrite Q; apply list3; ring].
  injection Q as Q0 Q1 Q2. destruct (Req_dec k 0) as [K|K]; [exact K|exfalso].
  apply Rmult_integral in Q0, Q1, Q2. destruct Q0 as [Q0|Q0]; [tauto|]. destruct Q1 as [Q1|Q1]; [tauto|]. destruct Q2 as [Q2|Q2]; [tauto|].
  replace (r - cx) with 0 in RP by lra. replace (r0 - cy) with 0 in RP by lra. replace (r1 - cz) with 0 in RP by lra. lra.
Qed.

(** ---- the list of slivers as cells ---- *)
Lemma filter_map_comm {A B} (f : B -> bool) (g : A -> B) l : filter f (map g l) = map g (filter (fun x => f (g x)) l).
Proof. induction l as [|x l IH]; [reflexivity|]. cbn [map filter]. destruct (f (g x)); cbn [map]; rewrite IH; reflexivity. Qed.
Lemma sorted_filter_seq f a n : StronglySorted lt (filter f (seq a n)).
Proof.
  revert a. induction n as [|n IH]; intros a; [constructor|]. cbn [seq filter]. destruct (f a); [|apply IH]. constructor; [apply IH|].
  rewrite Forall_forall. intros x I. apply filter_In in I. destruct I as [I _]. apply in_seq in I. lia.
Qed.
Lemma sorted_lt_eq l : forall m, StronglySorted lt l -> StronglySorted lt m -> (forall x, In x l <-> In x m) -> l = m.
Proof.
  induction l as [|x l IH]; intros [|y m] S1 S2 E; [reflexivity|exfalso; apply (E y); left; reflexivity|exfalso; apply (E x); left; reflexivity|].
  inversion S1 as [|? ? A1 A2]; inversion S2 as [|? ? B1 B2]; subst. rewrite Forall_forall in A2, B2.
  assert (x = y) as ->.
  { destruct (proj1 (E x)) as [Q|Q]; [left; reflexivity|congruence|]. destruct (proj2 (E y)) as [Q'|Q']; [left; reflexivity|congruence|]. specialize (A2 _ Q'). specialize (B2 _ Q). lia. }
  f_equal. apply IH; [assumption..|]. intros z. split; intros I.
  - destruct (proj1 (E z)) as [Q|Q]; [right; exact I| |exact Q]. subst. specialize (A2 _ I). lia.
  - destruct (proj2 (E z)) as [Q|Q]; [right; exact I| |exact Q]. subst. specialize (B2 _ I). lia.
Qed.
Definition bad_row (p : list pt) (lo hi : R) (r : row) : bool := existsb (out_of_bounds lo hi) (cell_angles (pts_of p r)).
Lemma slivers_rows p t lo hi : map (fun e => nth e t []) (slivers p t lo hi) = filter (bad_row p lo hi) t.
Proof.
  assert (slivers p t lo hi = filter (fun e => bad_row p lo hi (nth e t [])) (seq 0 (length t))) as ->.
  { apply sorted_lt_eq; [apply MeshAux.unique_nat_sorted|apply sorted_filter_seq|]. intros x. rewrite DihedralProofs.slivers_in, filter_In, in_seq. unfold bad_row. intuition lia. }
  rewrite <- filter_map_comm. f_equal. symmetry. apply ForceProofs.list_seq.
Qed.

(** ---- one round ---- *)
Lemma perturb_length st h0 p t sl : length (perturb_points st h0 p t sl) = length p.
Proof. unfold perturb_points. rewrite map_length, seq_length. reflexivity. Qed.
Lemma perturb_same st h0 p t sl v : (v < length p)%nat -> (forall e, In e sl -> nth 0 (nth e t []) O <> v) -> nth v (perturb_points st h0 p t sl) [] = nth v p [].
Proof.
  intros L H. unfold perturb_points. rewrite (nth_map' _ _ _ _ O) by (rewrite seq_length; exact L). rewrite seq_nth by exact L. cbn [Nat.add].
  assert (filter (fun e => (nth 0 (nth e t []) O =? v)%nat) (rev sl) = []) as ->; [|reflexivity].
  destruct (filter _ _) as [|e l] eqn:E; [reflexivity|exfalso]. assert (In e (filter (fun e => (nth 0 (nth e t []) O =? v)%nat) (rev sl))) as I by (rewrite E; left; reflexivity).
  apply filter_In in I. destruct I as [I Q]. apply in_rev in I. apply Nat.eqb_eq in Q. exact (H e I Q).
Qed.
Lemma perturb_last st h0 p t l1 e l2 v : (v < length p)%nat -> nth 0 (nth e t []) O = v -> (forall e', In e' l2 -> nth 0 (nth e' t []) O <> v) ->
  nth v (perturb_points st h0 p t (l1 ++ e :: l2)) [] = map2 (fun x d => x + st * h0 * d) (nth v p []) (perturb_of p (nth e t [])).
Proof.
  intros L Q H. unfold perturb_points. rewrite (nth_map' _ _ _ _ O) by (rewrite seq_length; exact L). rewrite seq_nth by exact L. cbn [Nat.add].
  rewrite rev_app_distr. cbn [rev]. rewrite <- app_assoc, filter_app. cbn [app filter].
  assert (filter (fun e => (nth 0 (nth e t []) O =? v)%nat) (rev l2) = []) as ->.
  { destruct (filter _ _) as [|e' l] eqn:E; [reflexivity|exfalso]. assert (In e' (filter (fun e => (nth 0 (nth e t []) O =? v)%nat) (rev l2))) as I by (rewrite E; left; reflexivity).
    apply filter_In in I. destruct I as [I Q']. apply in_rev in I. apply Nat.eqb_eq in Q'. exact (H e' I Q'). }
  cbn [app]. rewrite (proj2 (Nat.eqb_eq _ _) Q). reflexivity.
Qed.

(** ---- the history of a call ---- *)
Section History.
Variables (B : backend) (S : sliver_problem).
Definition rpts (Q : nat -> list pt) i := fst (b_tri B i (Q i)).
Definition rcells (Q : nat -> list pt) i := remove_outside 3 (s_fd S) (s_geps S) (fst (b_tri B i (Q i))) (snd (b_tri B i (Q i))).
Definition rslivers (Q : nat -> list pt) i := slivers (rpts Q i) (rcells Q i) (s_lo S) (s_hi S).
Lemma loop_history fuel : forall count step old p out k, s_preserve S = false -> sliver_loop B S fuel count step old p = Some (Ok out, k) ->
  (count < k)%nat /\ exists (Q : nat -> list pt) (st : nat -> R), Q count = p /\
    st count = new_step (s_gamma S) step (length (rslivers Q count)) old /\
    forall i, (count <= i)%nat -> (Datatypes.S i < k)%nat -> rslivers Q i <> [] /\
      Q (Datatypes.S i) = perturb_points (st i) (s_h0 S) (rpts Q i) (rcells Q i) (rslivers Q i) /\
      st (Datatypes.S i) = new_step (s_gamma S) (st i) (length (rslivers Q (Datatypes.S i))) (Some (length (rslivers Q i))).
Proof.
  intros count step old p out k PR. revert count step old p out k. induction fuel as [|fuel IH]; intros count step old p out k H; [discriminate|].
  cbn [sliver_loop] in H. destruct (b_tri B count p) as [p1 t0] eqn:ET.
  assert (forall k', k' = Datatypes.S count -> (count < k')%nat /\ exists (Q : nat -> list pt) (st : nat -> R), Q count = p /\
    st count = new_step (s_gamma S) step (length (rslivers Q count)) old /\
    forall i, (count <= i)%nat -> (Datatypes.S i < k')%nat -> rslivers Q i <> [] /\
      Q (Datatypes.S i) = perturb_points (st i) (s_h0 S) (rpts Q i) (rcells Q i) (rslivers Q i) /\
      st (Datatypes.S i) = new_step (s_gamma S) (st i) (length (rslivers Q (Datatypes.S i))) (Some (length (rslivers Q i)))) as STOP.
  { intros k' ->. split; [lia|]. exists (fun _ => p), (fun _ => new_step (s_gamma S) step (length (rslivers (fun _ => p) count)) old). split; [reflexivity|]. split; [reflexivity|]. intros i A C. lia. }
  destruct (Reqb _ _); [apply STOP; injection H as _ <-; reflexivity|].
  destruct (slivers p1 _ _ _) as [|e sl] eqn:ES; [apply STOP; injection H as _ <-; reflexivity|]. clear STOP.
  rewrite PR in H. rewrite <- ES in H. apply IH in H. destruct H as (L & Q & st & Q0 & S0 & HR). split; [lia|].
  exists (fun i => if (i <=? count)%nat then p else Q i), (fun i => if (i <=? count)%nat then new_step (s_gamma S) step (length (slivers p1 (remove_outside 3 (s_fd S) (s_geps S) p1 t0) (s_lo S) (s_hi S))) old else st i).
  set (Q' := fun i => if (i <=? count)%nat then p else Q i).
  assert (forall i, (count < i)%nat -> rslivers Q' i = rslivers Q i /\ rpts Q' i = rpts Q i /\ rcells Q' i = rcells Q i) as HI.
  { intros i Hi. unfold rslivers, rpts, rcells, Q'. rewrite (proj2 (Nat.leb_gt i count)) by lia. repeat split. }
  assert (rslivers Q' count = slivers p1 (remove_outside 3 (s_fd S) (s_geps S) p1 t0) (s_lo S) (s_hi S)) as EC.
  { unfold rslivers, rpts, rcells, Q'. rewrite Nat.leb_refl, ET. reflexivity. }
  split; [unfold Q'; rewrite Nat.leb_refl; reflexivity|]. split; [rewrite Nat.leb_refl, EC; reflexivity|].
  intros i A C. destruct (Nat.eq_dec i count) as [-> | Ni].
  - split; [rewrite EC, ES; discriminate|]. rewrite Nat.leb_refl, (proj2 (Nat.leb_gt (Datatypes.S count) count)) by lia.
    rewrite (proj1 (HI (Datatypes.S count) ltac:(lia))), EC. split; [|exact S0].
     rewrite Q0. unfold rpts, rcells, Q'. rewrite Nat.leb_refl, ET. reflexivity.
  - destruct (HI i ltac:(lia)) as (I1 & I2 & I3). destruct (HI (Datatypes.S i) ltac:(lia)) as (J1 & _ & _). rewrite I1, I2, I3, J1.
    rewrite (proj2 (Nat.leb_gt i count)) by lia. rewrite (proj2 (Nat.leb_gt (Datatypes.S i) count)) by lia.
     apply HR; lia.
Qed.
End History.
