(** C101: which vertices sliver_removal moves in a round, how far and in which direction. *)
From Coq Require Import Reals List Arith Bool Lra Lia Permutation ZArith.
From Verif Require Import Model.Base Model.SDF Model.Mesh Model.Simplex Model.Formulas Model.Laplace Model.Forces Model.Newton Model.Dihedral Model.Generator
  Spec.MeshTopo Spec.Geom Spec.Boxes Spec.Bars Spec.Dihedral Spec.Padded Spec.Linear.
From Verif Require Import Proofs.ListAux Proofs.MeshAux Proofs.FixMeshProofs Proofs.FormulaProofs Proofs.CircumProofs Proofs.DihedralProofs Proofs.GenLoop Proofs.SliverProofs Proofs.Euclid
  Props.P09_slivers Props.P18_generate Props.P19_sliver_removal.
Import ListNotations.
Local Open Scope R_scope.

(** ---- specification ---- *)
(** q is the first corner of s after a move of length len along its radius of the circumscribed sphere: away from the centre when
    corner and centre lie on the same side of the opposite face, towards it when they lie on different sides *)
Definition along_radius (len : R) (s : list pt) (q : pt) : Prop :=
  forall corner face c r2, s = corner :: face -> simp_vol s <> 0 -> circumscribed s c r2 ->
  (0 < simp_vol (c :: face) * simp_vol s -> q = vplus corner (vtimes (len / sqrt r2) (vec c corner))) /\
  (simp_vol (c :: face) * simp_vol s < 0 -> q = vplus corner (vtimes (- len / sqrt r2) (vec c corner))).
(** one round over the points p with the slivers sl: only first corners of slivers move; the last sliver with that first corner decides *)
Definition moved (len : R) (p : list pt) (sl : list row) (q : list pt) : Prop :=
  length q = length p /\ forall v, (v < length p)%nat ->
  ((forall r, In r sl -> nth 0 r O <> v) -> nth v q [] = nth v p []) /\
  (forall l1 r l2, sl = l1 ++ r :: l2 -> nth 0 r O = v -> (forall r', In r' l2 -> nth 0 r' O <> v) ->
     along_radius len (map (fun w => nth w p []) r) (nth v q [])).
(** the cells of a triangulation whose centre is inside and that have a bad angle, in order *)
Definition sliver_cells (fd : pt -> R) (geps lo hi : R) (p : list pt) (t sl : list row) : Prop :=
  exists f, sl = filter f t /\ forall r, In r t -> (f r = true <-> fd (cell_centre 3 p r) < - geps /\ bad_angle lo hi (map (fun w => nth w p []) r)).
Definition next_step (gamma step : R) (now before : nat) (step' : R) : Prop :=
  ((now < before)%nat -> step' = step / gamma) /\ ((before < now)%nat -> step' = step * gamma) /\ (now = before -> step' = step / (4 / 5)).
(** Q i: points given to triangulation i; P i, T i: what it returns; SL i: its slivers; st i: the step of round i *)
Record history (B : backend) (fd : pt -> R) (h0 geps lo hi gamma : R) (points : list pt) (k : nat)
    (Q P : nat -> list pt) (T SL : nat -> list row) (st : nat -> R) : Prop := {
  h_start : Q 0%nat = points;
  h_tri : forall i, (i < k)%nat -> b_tri B i (Q i) = (P i, T i);
  h_slivers : forall i, (i < k)%nat -> sliver_cells fd geps lo hi (P i) (T i) (SL i);
  h_some : forall i, (S i < k)%nat -> SL i <> [];
  h_move : forall i, (S i < k)%nat -> moved (st i * h0) (P i) (SL i) (Q (S i));
  h_first : st 0%nat = 1 / 10 / gamma;
  h_next : forall i, (S i < k)%nat -> next_step gamma (st i) (length (SL (S i))) (length (SL i)) (st (S i)) }.

(** ---- proofs ---- *)
Lemma perturb_radius p r st h0 : length r = 4%nat -> (forall v, In v r -> length (nth v p []) = 3%nat) ->
  along_radius (st * h0) (map (fun w => nth w p []) r) (map2 (fun x d => x + st * h0 * d) (nth (nth 0 r O) p []) (perturb_of p r)).
Proof.
  intros L4 L3. destruct r as [|a [|b [|c [|d [|? ?]]]]]; try discriminate L4. clear L4. cbn [map]. unfold perturb_of. cbn [nth].
  intros corner face z r2 E N C. injection E as <- <-.
  assert (simplex_points 3 [nth a p []; nth b p []; nth c p []; nth d p []]) as SP.
  { split; [reflexivity|]. repeat (apply Forall_cons; [apply L3; cbn; tauto|]). apply Forall_nil. }
  fold (pdir (nth a p []) (nth b p []) (nth c p []) (nth d p [])).
  destruct (pdir_radial _ _ _ _ _ _ SP N C) as [K1 K2].
  assert (forall k len, map2 (fun x d0 => x + len * d0) (nth a p []) (vtimes (k / sqrt r2) (vplus (nth a p []) (vtimes (-1) z))) = vplus (nth a p []) (vtimes (k * len / sqrt r2) (vec z (nth a p [])))) as G.
  { intros k len. unfold vec. unfold circumscribed in C. rewrite Forall_forall in C. destruct (C (nth a p [])) as [L0 _]; [left; reflexivity|].
    assert (length (nth a p []) = 3%nat) as La by (apply L3; cbn; tauto). destruct (nth a p []) as [|x [|y [|w [|? ?]]]]; try discriminate La.
    destruct z as [|zx [|zy [|zz [|? ?]]]]; try discriminate L0. unfold vtimes, map2. cbn [map vplus combine fst snd]. unfold Rdiv. apply list3; ring. }
  split; intros Q.
  - rewrite (K1 Q), G. do 3 f_equal. ring.
  - rewrite (K2 Q), G. do 3 f_equal. ring.
Qed.
Lemma sliver_run2 B points d s o fuel out k : sliver_removal B 0 points d s o fuel = inl (Some (Ok out, k)) ->
  exists fd h0 S, sliver_loop B S fuel 0 (1 / 10) None points = Some (Ok out, k) /\
    sliver_domain d s fd /\ (match size_hmin s with Some h => Some h | None => so_h0 o end) = Some h0 /\ 0 <= h0 /\
    S = mkSliver fd h0 (deps_of h0) (so_geps_mult o * h0) (degrees (so_min_deg o)) (degrees (so_max_deg o)) (so_gamma o) (so_preserve o) (so_max_iter o) (so_checks o).
Proof.
  unfold sliver_removal. cbn [Nat.ltb Nat.leb]. destruct (existsb _ _); [discriminate|].
  destruct (match size_bbox s with None => _ | Some _ => _ end) as [fd|] eqn:EF; [|discriminate].
  destruct (match size_hmin s with None => _ | Some _ => _ end) as [h0|]; [|discriminate]. destruct (Rltb h0 0) eqn:E0; [discriminate|]. destruct (Rltb (so_max_iter o) 0); [discriminate|].
  intros H. injection H as H. exists fd, h0. eexists. split; [exact H|]. split; [|split; [reflexivity|split; [apply Rltb_false, E0|reflexivity]]]. apply sliver_domain_used, EF.
Qed.
Lemma filter_filter {A} (f g : A -> bool) l : filter f (filter g l) = filter (fun x => g x && f x) l.
Proof. induction l as [|x l IH]; [reflexivity|]. cbn [filter]. destruct (g x); cbn [filter andb]; rewrite IH; reflexivity. Qed.

(** Every call that returns, with preserve = False, has such a history. *)
Theorem C101_rounds : forall B points d s o fuel out k, gives_tets B -> so_preserve o = false ->
  sliver_removal B 0 points d s o fuel = inl (Some (Ok out, k)) ->
  exists fd h0 Q P T SL st, sliver_domain d s fd /\ (match size_hmin s with Some h => Some h | None => so_h0 o end) = Some h0 /\
    history B fd h0 (so_geps_mult o * h0) (degrees (so_min_deg o)) (degrees (so_max_deg o)) (so_gamma o) points k Q P T SL st.
Proof.
  intros B points d s o fuel out k HT PR H. destruct (sliver_run2 _ _ _ _ _ _ _ _ H) as (fd & h0 & S & HS & FD & HH & H0 & ES).
  assert (s_preserve S = false) as PR' by (rewrite ES; exact PR).
  destruct (loop_history B S fuel _ _ _ _ _ _ PR' HS) as (L & Q & st & Q0 & S0 & HR).
  exists fd, h0, Q, (fun i => fst (b_tri B i (Q i))), (fun i => snd (b_tri B i (Q i))), (fun i => map (fun e => nth e (rcells B S Q i) []) (rslivers B S Q i)), st.
  split; [exact FD|]. split; [exact HH|].
  assert (forall i r, In r (rcells B S Q i) -> In r (snd (b_tri B i (Q i)))) as SUB by (intros i r I; apply filter_In in I; apply I).
  assert (forall i r, In r (rcells B S Q i) -> length r = 4%nat /\ forall v, In v r -> length (nth v (rpts B Q i) []) = 3%nat) as T3.
  { intros i r I. destruct (HT i (Q i) r (SUB i r I)) as [A C]. split; [exact A|]. intros v V. apply C, V. }
  split.
  - exact Q0.
  - intros i _. apply surjective_pairing.
  - intros i _. unfold rslivers. rewrite slivers_rows. unfold rcells, remove_outside. rewrite filter_filter. eexists. split; [reflexivity|].
    intros r I. cbv beta. rewrite andb_true_iff, Rltb_true, centroid_centre. subst S. cbn [s_fd s_geps s_lo s_hi].
    destruct (HT i (Q i) r I) as [A C]. unfold bad_row, pts_of, rpts. destruct r as [|w0 [|w1 [|w2 [|w3 [|? ?]]]]]; try discriminate A. cbn [map].
    rewrite bad_angle_spec by (apply C; cbn; tauto). reflexivity.
  - intros i Hi. destruct (HR i ltac:(lia) Hi) as (NE & _ & _). destruct (rslivers B S Q i); [exfalso; apply NE; reflexivity|discriminate].
  - intros i Hi. destruct (HR i ltac:(lia) Hi) as (_ & EQ & _). rewrite EQ. split; [apply perturb_length|]. intros v Hv. split.
    + intros N. apply perturb_same; [exact Hv|]. intros e Ie. apply N, in_map_iff. exists e. split; [reflexivity|exact Ie].
    + intros l1 r l2 ER FR NX. apply map_eq_app in ER. destruct ER as (m1 & m2' & EM & <- & ER). rewrite EM. destruct m2' as [|e m2]; [discriminate|]. cbn [map] in ER. injection ER as Ee ER.
      rewrite perturb_last; [|exact Hv|rewrite Ee; exact FR|].
      2:{ intros e' I. apply NX. rewrite <- ER. apply in_map_iff. exists e'. split; [reflexivity|exact I]. }
      rewrite Ee, <- FR. subst S. cbn [s_h0]. destruct (slivers_in (rpts B Q i) (rcells B (mkSliver fd h0 (deps_of h0) (so_geps_mult o * h0) (degrees (so_min_deg o)) (degrees (so_max_deg o)) (so_gamma o) (so_preserve o) (so_max_iter o) (so_checks o)) Q i) (degrees (so_min_deg o)) (degrees (so_max_deg o)) e) as [SI _].
      destruct SI as [Le _].
      { unfold rslivers in *. cbn [s_lo s_hi] in *. rewrite EM. apply in_or_app. right. left. reflexivity. }
      assert (In r (rcells B (mkSliver fd h0 (deps_of h0) (so_geps_mult o * h0) (degrees (so_min_deg o)) (degrees (so_max_deg o)) (so_gamma o) (so_preserve o) (so_max_iter o) (so_checks o)) Q i)) as Ir by (rewrite <- Ee; apply nth_In, Le).
      destruct (T3 i r Ir) as [R4 R3]. apply perturb_radius; assumption.
  - rewrite S0. unfold new_step. subst S. reflexivity.
  - intros i Hi. destruct (HR i ltac:(lia) Hi) as (_ & _ & ->). rewrite !map_length. unfold new_step, next_step. subst S. cbn [s_gamma].
    repeat split; intros K.
    + rewrite (proj2 (Nat.ltb_lt _ _) K). reflexivity.
    + rewrite (proj2 (Nat.ltb_ge _ _)) by lia. rewrite (proj2 (Nat.ltb_lt _ _) K). reflexivity.
    + rewrite !(proj2 (Nat.ltb_ge _ _)) by lia. field.
Qed.
Print Assumptions C101_rounds.

(** ---- direction and length of the move ---- *)
(** calc_circumsphere_grad points along the radius; it vanishes, and the direction is 0/0, exactly when the centre of the
    circumscribed sphere lies in the plane of the face opposite the corner. *)
Theorem C101_direction : forall p0 p1 p2 p3 c r2, simplex_points 3 [p0; p1; p2; p3] -> simp_vol [p0; p1; p2; p3] <> 0 -> circumscribed [p0; p1; p2; p3] c r2 ->
  circumsphere_grad p0 p1 p2 p3 = vtimes (2 * (simp_vol [c; p1; p2; p3] / simp_vol [p0; p1; p2; p3])) (vec c p0) /\
  (circumsphere_grad p0 p1 p2 p3 = [0; 0; 0] <-> simp_vol [c; p1; p2; p3] = 0).
Proof. intros p0 p1 p2 p3 c r2 H N C. split; [exact (grad_radial _ _ _ _ _ _ H N C)|exact (grad_zero _ _ _ _ _ _ H N C)]. Qed.
Print Assumptions C101_direction.
Lemma edist_refl p : edist p p = 0.
Proof. unfold edist. replace (sqdist p p) with 0; [apply sqrt_0|]. induction p as [|x p IH]; [reflexivity|]. cbn [sqdist]. rewrite <- IH. ring. Qed.
Lemma sqdist3 a b c x y z : sqdist [a; b; c] [x; y; z] = (a - x) ^ 2 + (b - y) ^ 2 + (c - z) ^ 2.
Proof. unfold sqdist. cbn. ring. Qed.
(** the vertex moves by exactly step * h0 *)
Theorem C101_length : forall len p0 p1 p2 p3 c r2 q, 0 <= len -> simplex_points 3 [p0; p1; p2; p3] -> simp_vol [p0; p1; p2; p3] <> 0 ->
  circumscribed [p0; p1; p2; p3] c r2 -> simp_vol [c; p1; p2; p3] <> 0 -> along_radius len [p0; p1; p2; p3] q ->
  length q = 3%nat /\ edist q p0 = len /\
  edist q c = (if Rlt_dec 0 (simp_vol [c; p1; p2; p3] * simp_vol [p0; p1; p2; p3]) then edist p0 c + len else Rabs (edist p0 c - len)).
Proof.
  intros len p0 p1 p2 p3 c r2 q LN H N C NC A. destruct (A p0 [p1; p2; p3] c r2 eq_refl N C) as [A1 A2]. pose proof (rad_pos _ _ _ _ _ _ H N C) as RP.
  assert (edist p0 c = sqrt r2 /\ forall k, let q := vplus p0 (vtimes (k / sqrt r2) (vec c p0)) in length q = 3%nat /\ edist q p0 = Rabs k /\ edist q c = Rabs (sqrt r2 + k)) as [EC K].
  { unfold circumscribed in C. rewrite Forall_forall in C. destruct (C p0) as [L0 E0]; [left; reflexivity|]. destruct H as [_ HF]. inversion HF as [|? ? La _]; subst.
    destruct p0 as [|x [|y [|w [|? ?]]]]; try discriminate La. destruct c as [|zx [|zy [|zz [|? ?]]]]; try discriminate L0. clear - RP. cbn [sqnorm_diff] in *.
    set (r2 := (x - zx) ^ 2 + ((y - zy) ^ 2 + ((w - zz) ^ 2 + 0))) in *. split; [unfold edist; rewrite sqdist3; f_equal; unfold r2; ring|].
    assert (0 < sqrt r2) as SP by (apply sqrt_lt_R0, RP). pose proof (sqrt_sqrt r2 (Rlt_le _ _ RP)) as SS.
    intros k. unfold vec, vtimes. cbn [map vplus length]. split; [reflexivity|]. unfold edist. rewrite !sqdist3. assert ((x - zx) ^ 2 + (y - zy) ^ 2 + (w - zz) ^ 2 = sqrt r2 * sqrt r2) as D by (rewrite SS; unfold r2; ring). clearbody r2. split.
    - rewrite <- sqrt_Rsqr_abs. f_equal. unfold Rsqr.
      transitivity (k * k / (sqrt r2 * sqrt r2) * ((x - zx) ^ 2 + (y - zy) ^ 2 + (w - zz) ^ 2)); [field; lra|rewrite D; field; lra].
    - rewrite <- sqrt_Rsqr_abs. f_equal. unfold Rsqr.
      transitivity ((sqrt r2 + k) * (sqrt r2 + k) / (sqrt r2 * sqrt r2) * ((x - zx) ^ 2 + (y - zy) ^ 2 + (w - zz) ^ 2)); [field; lra|rewrite D; field; lra]. }
  rewrite EC. pose proof (sqrt_lt_R0 _ RP). destruct (Rlt_dec 0 _) as [P|P].
  - rewrite (A1 P). destruct (K len) as (K1 & K2 & K3). split; [exact K1|]. rewrite K2, K3. rewrite !Rabs_right by lra. split; ring.
  - assert (simp_vol [c; p1; p2; p3] * simp_vol [p0; p1; p2; p3] < 0) as P'.
    { destruct (Rtotal_order (simp_vol [c; p1; p2; p3] * simp_vol [p0; p1; p2; p3]) 0) as [Q|[Q|Q]]; [exact Q| |tauto]. apply Rmult_integral in Q. tauto. }
    rewrite (A2 P'). destruct (K (- len)) as (K1 & K2 & K3). split; [exact K1|]. rewrite K2, K3. rewrite Rabs_Ropp, (Rabs_right len) by lra. split; reflexivity.
Qed.
Print Assumptions C101_length.

(** ---- the step with the default gamma = 1 ---- *)
Definition stuck (SL : nat -> list row) (i : nat) : nat := length (filter (fun j => (length (SL (S j)) =? length (SL j))%nat) (seq 0 i)).
Theorem C101_default_step : forall B fd h0 geps lo hi points k Q P T SL st, history B fd h0 geps lo hi 1 points k Q P T SL st ->
  forall i, (i < k)%nat -> st i = 1 / 10 * (5 / 4) ^ stuck SL i /\ 1 / 10 <= st i <= 1 / 10 * (5 / 4) ^ i.
Proof.
  intros B fd h0 geps lo hi points k Q P T SL st H i Hi.
  assert (st i = 1 / 10 * (5 / 4) ^ stuck SL i /\ (stuck SL i <= i)%nat) as [E L].
  { induction i as [|i IH]; [split; [rewrite (h_first _ _ _ _ _ _ _ _ _ _ _ _ _ _ H); cbn; field|cbn; lia]|].
    destruct (IH ltac:(lia)) as [IE IL]. destruct (h_next _ _ _ _ _ _ _ _ _ _ _ _ _ _ H i Hi) as (N1 & N2 & N3).
    unfold stuck in *. rewrite seq_S, filter_app, app_length. cbn [Nat.add filter]. destruct (Nat.eqb_spec (length (SL (S i))) (length (SL i))) as [Q1|Q1]; cbn [length].
    - rewrite (N3 Q1), IE, pow_add. split; [cbn; field|lia].
    - rewrite Nat.add_0_r. split; [|lia]. rewrite <- IE. destruct (Nat.lt_total (length (SL (S i))) (length (SL i))) as [Q2|[Q2|Q2]]; [rewrite (N1 Q2); field|tauto|rewrite (N2 Q2); ring]. }
  split; [exact E|]. rewrite E. assert (1 <= (5 / 4) ^ stuck SL i) by (apply pow_R1_Rle; lra). assert ((5 / 4) ^ stuck SL i <= (5 / 4) ^ i) by (apply Rle_pow; [lra|exact L]). lra.
Qed.
Print Assumptions C101_default_step.
(** how far a vertex can get in i rounds, if triangulations keep the points they are given, no sliver is flat and no centre lies in the
    plane of the opposite face *)
Definition plain (p : list pt) (r : row) : Prop :=
  forall p0 face, map (fun w => nth w p []) r = p0 :: face -> simp_vol (p0 :: face) <> 0 /\ forall c r2, circumscribed (p0 :: face) c r2 -> simp_vol (c :: face) <> 0.
Theorem C101_reach : forall B fd h0 geps lo hi points k Q P T SL st, gives_tets B -> 0 <= h0 ->
  history B fd h0 geps lo hi 1 points k Q P T SL st -> Forall (fun x => length x = 3%nat) points ->
  (forall i, (i < k)%nat -> P i = Q i) -> (forall i r, (S i < k)%nat -> In r (SL i) -> plain (P i) r) ->
  forall i v, (i < k)%nat -> (v < length points)%nat -> length (Q i) = length points /\ length (nth v (Q i) []) = 3%nat /\
    edist (nth v (Q i) []) (nth v points []) <= 2 / 5 * ((5 / 4) ^ i - 1) * h0.
Proof.
  intros B fd h0 geps lo hi points k Q P T SL st HT H0 H D3 SAME PL i. induction i as [|i IH]; intros v Hi Hv.
  - rewrite (h_start _ _ _ _ _ _ _ _ _ _ _ _ _ _ H). split; [reflexivity|]. rewrite Forall_forall in D3. split; [apply D3, nth_In, Hv|].
    rewrite edist_refl. cbn [pow]. lra.
  - destruct (IH v ltac:(lia) Hv) as (L1 & L2 & L3). destruct (h_move _ _ _ _ _ _ _ _ _ _ _ _ _ _ H i Hi) as [LM M]. rewrite SAME in LM, M by lia.
    split; [congruence|]. destruct (C101_default_step _ _ _ _ _ _ _ _ _ _ _ _ _ H i ltac:(lia)) as [_ [S1 S2]].
    assert (length (nth v (Q (S i)) []) = 3%nat /\ edist (nth v (Q (S i)) []) (nth v (Q i) []) <= st i * h0) as [LQ LE].
    { destruct (M v ltac:(lia)) as [M1 M2].
      assert (forall l : list row, (forall r, In r l -> nth 0 r O <> v) \/ exists l1 r l2, l = l1 ++ r :: l2 /\ nth 0 r O = v /\ forall r', In r' l2 -> nth 0 r' O <> v) as DEC.
      { induction l as [|r l IHl]; [left; intros r []|]. destruct IHl as [IHl|(l1 & r0 & l2 & -> & A & C)].
        - destruct (Nat.eq_dec (nth 0 r O) v) as [E|E]; [right; exists [], r, l; split; [reflexivity|]; split; assumption|left; intros r' [<- | I]; [exact E|apply IHl, I]].
        - right. exists (r :: l1), r0, l2. split; [reflexivity|]. split; assumption. }
      destruct (DEC (SL i)) as [NO|(l1 & r & l2 & E & F & NX)].
      - rewrite (M1 NO). split; [exact L2|]. rewrite edist_refl. apply Rmult_le_pos; lra.
      - pose proof (M2 l1 r l2 E F NX) as A. assert (In r (SL i)) as Ir by (rewrite E; apply in_or_app; right; left; reflexivity).
        pose proof (PL i r Hi Ir) as PLr. rewrite SAME in PLr by lia. destruct (h_slivers _ _ _ _ _ _ _ _ _ _ _ _ _ _ H i ltac:(lia)) as (f & EF & _).
        assert (In r (T i)) as It by (rewrite EF in Ir; apply filter_In in Ir; apply Ir). pose proof (h_tri _ _ _ _ _ _ _ _ _ _ _ _ _ _ H i ltac:(lia)) as ET.
        specialize (HT i (Q i) r). rewrite ET in HT. cbn [fst snd] in HT. rewrite SAME in HT by lia. destruct (HT It) as [R4 R3].
        destruct r as [|w0 [|w1 [|w2 [|w3 [|? ?]]]]]; try discriminate R4. cbn [nth] in F. subst w0. cbn [map] in *. destruct (PLr _ _ eq_refl) as [NV NC].
        assert (simplex_points 3 [nth v (Q i) []; nth w1 (Q i) []; nth w2 (Q i) []; nth w3 (Q i) []]) as SP.
        { split; [reflexivity|]. repeat (apply Forall_cons; [apply R3; cbn; tauto|]). apply Forall_nil. }
        destruct (circ_total _ SP NV) as (c & r2 & C). destruct (C101_length (st i * h0) _ _ _ _ c r2 _ ltac:(apply Rmult_le_pos; lra) SP NV C (NC _ _ C) A) as (X1 & X2 & _).
        split; [exact X1|]. rewrite X2. lra. }
    split; [exact LQ|]. assert (length (nth v points []) = 3%nat) as LP by (rewrite Forall_forall in D3; apply D3, nth_In, Hv).
    pose proof (triangle (nth v (Q (S i)) []) (nth v (Q i) []) (nth v points []) ltac:(congruence) ltac:(congruence)) as TR.
    assert (st i * h0 <= 1 / 10 * (5 / 4) ^ i * h0) by (apply Rmult_le_compat_r; lra). cbn [pow]. lra.
Qed.
Print Assumptions C101_reach.

(** ---- kites: two corners at (1,0,0) and (-1,0,0), one at (0,1,0), the first at (0,y,h) ---- *)
Lemma div_le x y z : 0 < y -> x <= z * y -> x / y <= z.
Proof. intros Y H. apply (Rmult_le_reg_r y); [exact Y|]. unfold Rdiv. rewrite Rmult_assoc, Rinv_l; lra. Qed.
Lemma le_div x y z : 0 < y -> z * y <= x -> z <= x / y.
Proof. intros Y H. apply (Rmult_le_reg_r y); [exact Y|]. unfold Rdiv. rewrite Rmult_assoc, Rinv_l; lra. Qed.
Lemma cos10 : cos (degrees 10) < 99 / 100.
Proof.
  unfold degrees. set (x := 10 * PI / 180). pose proof PI_RGT_0 as P.
  assert (4 * cos x ^ 3 - 3 * cos x = sqrt 3 / 2) as E.
  { rewrite <- cos_PI6. replace (PI / 6) with (2 * x + x) by (unfold x; field). rewrite cos_plus, cos_2a, sin_2a.
    assert (sin x * sin x = 1 - cos x * cos x) as S by (pose proof (sin2_cos2 x) as Q; unfold Rsqr in Q; lra).
    replace ((cos x * cos x - sin x * sin x) * cos x - 2 * sin x * cos x * sin x) with ((cos x * cos x - sin x * sin x) * cos x - 2 * cos x * (sin x * sin x)) by ring. rewrite S. ring. }
  destruct (Rlt_le_dec (cos x) (99 / 100)) as [L|L]; [exact L|exfalso]. assert (sqrt 3 <= 18 / 10) as Q.
  { apply Rsqr_incr_0_var; [|lra]. unfold Rsqr. rewrite sqrt_sqrt; lra. }
  assert ((cos x - 99 / 100) * (4 * cos x ^ 2 + 4 * (99 / 100) * cos x + 4 * (99 / 100) ^ 2 - 3) >= 0) by (apply Rle_ge, Rmult_le_pos; nra). lra.
Qed.
Definition kite (y h : R) : list pt := [[0; y; h]; [1; 0; 0]; [-1; 0; 0]; [0; 1; 0]].
Lemma kite_bad y h hi : -1 <= y <= -9 / 10 -> -1 / 10 <= h <= 1 / 10 -> bad_angle (degrees 10) hi (kite y h).
Proof.
  intros Y HH. set (m := (1 - y) / 2). assert (19 / 20 <= m <= 1) as Hm by (unfold m; lra).
  set (A := 2). set (C := 2 * (m * m) + h * h). assert (0 < C) as HC by (unfold C; nra).
  set (v := (2 * m) / (sqrt A * sqrt C)). assert (0 < sqrt A) as SA by (apply sqrt_lt_R0; unfold A; lra). assert (0 < sqrt C) as SC by (apply sqrt_lt_R0, HC).
  assert (sqrt A * sqrt A = A) as EA by (apply sqrt_sqrt; unfold A; lra). assert (sqrt C * sqrt C = C) as EC by (apply sqrt_sqrt; lra).
  assert (0 < v) as V0 by (apply Rdiv_lt_0_compat; [lra|apply Rmult_lt_0_compat; assumption]).
  assert (v * v = 4 * (m * m) / (A * C)) as VV. { unfold v. transitivity (4 * (m * m) / ((sqrt A * sqrt A) * (sqrt C * sqrt C))); [field; split; lra|rewrite EA, EC; reflexivity]. }
  assert (v * v <= 1) as V1. { rewrite VV. apply div_le; [unfold A; lra|]. unfold C, A. nra. }
  assert (99 / 100 * (99 / 100) <= v * v) as V2. { rewrite VV. apply le_div; [unfold A; lra|]. unfold C, A. nra. }
  assert (v <= 1) by nra. assert (99 / 100 <= v) as V3 by nra.
  exists [1; 0; 0], [0; 1; 0], [-1; 0; 0], [0; y; h], (acos v). split; [|split].
  - unfold kite. apply Permutation_sym. apply (Permutation_cons_app [[1;0;0];[0;1;0];[-1;0;0]] []). rewrite app_nil_r. apply perm_skip, perm_swap.
  - assert (perp (vec [1; 0; 0] [0; 1; 0]) (vec [1; 0; 0] [-1; 0; 0]) = [-1; -1; 0]) as E1.
    { unfold vec, perp, vtimes. cbn [map vplus inner]. apply list3; field. }
    assert (perp (vec [1; 0; 0] [0; 1; 0]) (vec [1; 0; 0] [0; y; h]) = [- m; - m; h]) as E2.
    { unfold vec, perp, vtimes, m. cbn [map vplus inner]. apply list3; field. }
    split; [unfold vec, vtimes; cbn [map vplus inner]; lra|]. rewrite E1, E2. unfold angle_between. cbn [inner].
    split; [lra|]. split; [unfold C in HC; lra|]. split; [apply acos_bound|]. rewrite cos_acos by lra.
    replace (-1 * -1 + (-1 * -1 + (0 * 0 + 0))) with A by (unfold A; ring). replace (- m * - m + (- m * - m + (h * h + 0))) with C by (unfold C; ring).
    unfold v. field. split; lra.
  - left. destruct (Rlt_le_dec (acos v) (degrees 10)) as [L|L]; [exact L|exfalso]. pose proof cos10 as K. pose proof (acos_bound v) as [B1 B2]. pose proof PI_RGT_0.
    assert (cos (acos v) <= cos (degrees 10)) as Q by (apply cos_decr_1; unfold degrees in *; lra). rewrite cos_acos in Q by lra. lra.
Qed.
(** A sliver with volume whose direction is undefined: the code divides the zero vector by its length and the vertex becomes NaN. *)
Theorem C101_undefined_direction : exists s p0 p1 p2 p3, s = [p0; p1; p2; p3] /\ simplex_points 3 s /\ simp_vol s <> 0 /\
  bad_angle (degrees (so_min_deg sliver_defaults)) (degrees (so_max_deg sliver_defaults)) s /\ circumsphere_grad p0 p1 p2 p3 = [0; 0; 0].
Proof.
  exists (kite (-1599 / 1601) (80 / 1601)), [0; -1599 / 1601; 80 / 1601], [1; 0; 0], [-1; 0; 0], [0; 1; 0]. split; [reflexivity|].
  assert (simplex_points 3 (kite (-1599 / 1601) (80 / 1601))) as SP by (split; [reflexivity|repeat constructor]). split; [exact SP|].
  assert (simp_vol (kite (-1599 / 1601) (80 / 1601)) <> 0) as N by (cbn; lra). split; [exact N|]. split; [apply kite_bad; lra|].
  apply (C101_direction _ _ _ _ [0; 0; 0] 1 SP N); [|cbn; lra]. unfold circumscribed, kite. repeat (apply Forall_cons; [split; [reflexivity|cbn; lra]|]). apply Forall_nil.
Qed.
Print Assumptions C101_undefined_direction.

(** a call with the default options that moves one vertex and returns after two triangulations; the moved vertex, its sphere's centre
    and the side of the face *)
Definition kite_backend : backend :=
  mkBackend (fun i _ => match i with O => (kite (-1) (1 / 20), [[0;1;2;3]%nat]) | S _ => (corner, [[0;1;2;3]%nat]) end) (nodup key_dec) (nodup row_dec) (fun _ x => map up x) ve_pairs (fun p _ => p) (fun n => repeat 0 n).
Example C101_case : exists t, gives_tets kite_backend /\ so_preserve sliver_defaults = false /\
  sliver_removal kite_backend 0 (kite (-1) (1 / 20)) (DFunction (fun _ => -1) [0;1;0;1;0;1]) (SScalar 1) sliver_defaults 50 = inl (Some (Ok (corner, t), 2%nat)) /\
  simp_vol (kite (-1) (1 / 20)) <> 0 /\ circumscribed (kite (-1) (1 / 20)) [0; 0; 1 / 40] (1601 / 1600) /\
  0 < simp_vol ([0; 0; 1 / 40] :: tl (kite (-1) (1 / 20))) * simp_vol (kite (-1) (1 / 20)).
Proof.
  exists [orient corner [0;1;2;3]%nat]. split; [|split; [reflexivity|split]].
  - intros i q r I. destruct i as [|i]; cbn in I; destruct I as [<- | []]; (split; [reflexivity|]); intros v V; cbn in V; destruct V as [<- | [<- | [<- | [<- | []]]]]; cbn; split; (lia || reflexivity).
  - unfold sliver_removal. cbn [Nat.ltb Nat.leb kite existsb length Nat.eqb orb]. fold (kite (-1) (1 / 20)). cbn [size_bbox dom_fd size_hmin so_max_iter sliver_defaults].
    rewrite !(proj2 (Rltb_false _ _)) by lra. set (S := mkSliver _ _ _ _ _ _ _ _ _ _). f_equal.
    assert (forall p r, remove_outside 3 (s_fd S) (s_geps S) p [r] = [r]) as EO.
    { intros p r. unfold remove_outside. cbn [filter]. rewrite (proj2 (Rltb_true _ _)); [reflexivity|]. subst S. cbn [s_fd s_geps so_geps_mult sliver_defaults]. lra. }
    assert (slivers corner [[0;1;2;3]%nat] (s_lo S) (s_hi S) = []) as ES.
    { destruct (slivers _ _ _ _) as [|e l] eqn:Q; [reflexivity|exfalso]. destruct (C55_slivers_exactly corner [[0;1;2;3]%nat] (s_lo S) (s_hi S)) as [_ SP].
      { intros r [<- | []]. split; [reflexivity|]. intros v H. cbn in H. destruct H as [<- | [<- | [<- | [<- | []]]]]; reflexivity. }
      rewrite Q in SP. destruct (proj1 (SP e) ltac:(left; reflexivity)) as [L BA]. cbn [length] in L. assert (e = 0%nat) as -> by lia. exact (corner_angles BA). }
    assert (In 0%nat (slivers (kite (-1) (1 / 20)) [[0;1;2;3]%nat] (s_lo S) (s_hi S))) as EK.
    { apply C55_slivers_exactly; [|split; [cbn; lia|]].
      - intros r [<- | []]. split; [reflexivity|]. intros v H. cbn in H. destruct H as [<- | [<- | [<- | [<- | []]]]]; reflexivity.
      - subst S. cbn [s_lo s_hi so_min_deg so_max_deg sliver_defaults nth map kite]. apply (kite_bad (-1) (1 / 20)); lra. }
    assert (run_fix kite_backend corner [[0;1;2;3]%nat] = Ok (corner, [orient corner [0;1;2;3]%nat])) as EF.
    { unfold run_fix, fix_mesh. cbn [b_uniqK b_uniqR b_key kite_backend corner map find_pos]. rewrite !up_0, !up_1. fold corner.
      match goal with |- context [nodup key_dec ?l] => let v := eval vm_compute in (nodup key_dec l) in change (nodup key_dec l) with v end.
      vm_compute. reflexivity. }
    change 50%nat with (Datatypes.S (Datatypes.S 48)). cbn [sliver_loop b_tri kite_backend]. fold kite_backend. rewrite !EO.
    rewrite (proj2 (Reqb_false _ _)) by (subst S; cbn [s_max_iter so_max_iter sliver_defaults INR]; lra).
    destruct (slivers (kite (-1) (1 / 20)) _ _ _) as [|e l]; [destruct EK|]. assert (s_preserve S = false) as -> by reflexivity.
    rewrite ?EO, ES, EF.
    rewrite (proj2 (Reqb_false _ _)) by (subst S; cbn [s_max_iter so_max_iter sliver_defaults INR]; lra). reflexivity.
  - split; [cbn; lra|]. split; [|cbn; lra]. unfold circumscribed, kite. repeat (apply Forall_cons; [split; [reflexivity|cbn; lra]|]). apply Forall_nil.
Qed.
