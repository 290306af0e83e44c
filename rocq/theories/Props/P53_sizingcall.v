(** C118: get_sizing_function_from_segy as it is called: velocity_data or a file, numbers of grid points and boxes that do not fit. *)
From Coq Require Import String List Reals Bool Arith Lia Lra.
From Verif Require Import Model.Base Model.FastHJ Model.ReadBin Model.Sizing Model.Interp Model.VelocityIO Model.SizingCall Proofs.ListAux Proofs.ReadBinProofs Proofs.SizingMore Proofs.SizingCallProofs Props.P20_sizefun.
Import ListNotations.
Local Open Scope R_scope.

(** ---- specification ---- *)
(** a 2D or 3D array with at least one entry *)
Definition array_ok (vp : garr) : Prop := (adim vp = 2%nat /\ n2 vp = 1%nat \/ adim vp = 3%nat) /\ (0 < n0 vp /\ 0 < n1 vp /\ 0 < n2 vp)%nat.
(** two numbers per axis *)
Definition box_fits (vp : garr) (b : bbox) : Prop := length b = (2 * adim vp)%nat.
(** sizes that depend on the velocities are asked for *)
Definition varying (o : opts) : Prop := 0 < o_wl o \/ 0 < o_grad o.
(** the options with another grade *)
Definition regraded (o : opts) (g : R) : opts :=
  mkOpts (o_vp_water o) (o_hmin o) (o_hmax o) (o_wl o) (o_freq o) (o_grad o) g (o_space_order o) (o_dt o) (o_cr_max o) (o_pad_style o) (o_domain_pad o) (o_units o).
(** the time step is looked at *)
Definition courant_on (o : opts) : Prop := o_cr_max o <> 0 /\ o_dt o <> 0 /\ o_space_order o <> 0.
(** nz points are used where the array has n0: the numbers that are 1 are stretched by numpy *)
Definition fits1 (given n : nat) : Prop := given = n \/ given = 1%nat.

Lemma vary_true o : varying o -> Rgtb (o_wl o) 0 || Rgtb (o_grad o) 0 = true.
Proof. unfold varying, Rgtb, Rltb. intros [H|H]; destruct (Rlt_dec 0 (o_wl o)), (Rlt_dec 0 (o_grad o)); try reflexivity; lra. Qed.
Lemma vary_false o : ~ varying o -> Rgtb (o_wl o) 0 || Rgtb (o_grad o) 0 = false.
Proof. unfold varying, Rgtb, Rltb. intros H; destruct (Rlt_dec 0 (o_wl o)), (Rlt_dec 0 (o_grad o)); try reflexivity; exfalso; apply H; auto. Qed.
Lemma box_dim vp b : array_ok vp -> box_fits vp b -> bbox_dim b = Ok (adim vp).
Proof. unfold array_ok, box_fits, bbox_dim. intros ([(-> & _) | ->] & _) ->; reflexivity. Qed.
Lemma box_usual vp b : box_fits vp b -> usual_box b vp.
Proof. unfold usual_box, box_fits. intros -> ->. lia. Qed.
Lemma pos n : (0 < n)%nat -> 0 < INR n. Proof. apply lt_0_INR. Qed.
(** sizes of the velocities' shape: the call is the pipeline with the grade scaled by the ratio of the numbers of points *)
Lemma vary_call uf rnd o b vp m nx ny : array_ok vp -> usual_box b vp -> varying o -> (match bbox_dim b with Ok 3%nat => ny <> None | _ => True end) ->
  sizing_call uf rnd true true o b (Ok (vp, Some (S m), Some nx, ny)) = size_function uf rnd (regraded o (o_grade o * (INR (n0 vp) / INR (S m)))) b vp.
Proof.
  intros A U V NY. rewrite call_stages, function_stages. change (prepare_vp (regraded o _) vp) with (prepare_vp o vp). destruct (prepare_vp o vp) as [vp1| |] eqn:E1; cbn [sbind]; [|reflexivity|reflexivity].
  destruct (bbox_dim b) as [dim|]; [|reflexivity]. rewrite (vary_true o V). assert (exists a, constant_size dim (o_hmin o) (Some (S m)) (Some nx) ny = Ok a) as (a & ->).
  { unfold constant_size. destruct (Nat.eqb_spec dim 3) as [-> | N]; [destruct ny; [eauto|contradiction]|eauto]. }
  change (initial_size uf (regraded o _) vp1) with (initial_size uf o vp1). destruct (initial_size uf o vp1) as [a0| |] eqn:E0; cbn [sbind]; [|reflexivity|reflexivity].
  pose proof (like_prepare _ _ _ E1) as L1. pose proof (filled_like _ _ L1 A) as F1. assert (U1 : usual_box b vp1) by (unfold usual_box; rewrite (proj1 L1); exact U).
  pose proof (like_trans _ _ _ (like_clamp (o_hmin o) (o_hmax o) a0) (like_initial _ _ _ _ E0)) as L0.
  rewrite stages_ok by assumption. rewrite (stages_grade rnd o b vp1 _ (n0 vp1) (S m)) by (apply pos; first [lia|apply F1]). rewrite (proj1 (proj2 L1)). reflexivity.
Qed.
(** constant sizes that are, or are stretched to be, of the velocities' shape *)
Lemma constant_call uf rnd o b vp m nx ny : array_ok vp -> box_fits vp b -> ~ varying o -> (match bbox_dim b with Ok 3%nat => ny <> None | _ => True end) ->
  (S m = n0 vp /\ nx = n1 vp /\ (adim vp = 3%nat -> ny = Some (n2 vp))) \/ courant_on o /\ fits1 (S m) (n0 vp) /\ fits1 nx (n1 vp) /\ (adim vp = 3%nat -> exists y, ny = Some y /\ fits1 y (n2 vp)) ->
  0 < o_hmin o -> 0 < o_hmax o ->
  sizing_call uf rnd true true o b (Ok (vp, Some (S m), Some nx, ny)) = size_function uf rnd (regraded o (o_grade o * (INR (n0 vp) / INR (S m)))) b vp.
Proof.
  intros A B V NY SH H0 H1. rewrite call_stages, function_stages. change (prepare_vp (regraded o _) vp) with (prepare_vp o vp). destruct (prepare_vp o vp) as [vp1| |] eqn:E1; cbn [sbind]; [|reflexivity|reflexivity].
  rewrite (box_dim vp b A B) in *. rewrite (vary_false o V). pose proof (like_prepare _ _ _ E1) as L1. pose proof (filled_like _ _ L1 A) as F1.
  assert (U1 : usual_box b vp1) by (unfold usual_box; rewrite (proj1 L1); exact (box_usual vp b B)).
  set (z := if Nat.eqb (adim vp) 3 then match ny with Some y => y | None => O end else 1%nat).
  assert (constant_size (adim vp) (o_hmin o) (Some (S m)) (Some nx) ny = Ok (mkArr (adim vp) (S m) nx z (fun _ _ _ => o_hmin o))) as ->.
  { unfold constant_size, z. destruct A as ([(D & _) | D] & _); rewrite D in *; cbn [Nat.eqb]; [reflexivity|]. destruct ny; [reflexivity|contradiction]. }
  unfold initial_size. change (o_wl (regraded o _)) with (o_wl o). change (o_grad (regraded o _)) with (o_grad o). rewrite (vary_false o V). cbn [sbind].
  change (o_hmin (regraded o _)) with (o_hmin o). change (o_hmax (regraded o _)) with (o_hmax o).
  set (c := mkArr (adim vp) (S m) nx z (fun _ _ _ => o_hmin o)). set (k := if Rgtb (if Rltb (o_hmin o) (o_hmin o) then o_hmin o else o_hmin o) (o_hmax o) then o_hmax o else (if Rltb (o_hmin o) (o_hmin o) then o_hmin o else o_hmin o)).
  assert (K : k <> 0) by (unfold k; destruct (Rltb (o_hmin o) (o_hmin o)), (Rgtb _ _); lra).
  assert (CC : clamp (o_hmin o) (o_hmax o) c = mkArr (adim vp) (S m) nx z (fun _ _ _ => k)) by reflexivity.
  assert (CV : clamp (o_hmin o) (o_hmax o) (amap (fun _ => o_hmin o) vp1) = mkArr (adim vp1) (n0 vp1) (n1 vp1) (n2 vp1) (fun _ _ _ => k)) by reflexivity.
  rewrite CC, CV. set (cc := mkArr (adim vp) (S m) nx z (fun _ _ _ => k)). set (cv := mkArr (adim vp1) (n0 vp1) (n1 vp1) (n2 vp1) (fun _ _ _ => k)).
  assert (LV : like cv vp1) by (repeat split).
  assert (ST : stages_call rnd o b ((bget b 1 - bget b 0) / INR (S m)) true vp1 cc = stages_call rnd o b ((bget b 1 - bget b 0) / INR (S m)) true vp1 cv).
  { destruct L1 as (LA & LN0 & LN1 & LN2). destruct SH as [(SZ & SX & SY) | (CO & SZ & SX & SY)].
    - assert (cc = cv) as ->; [|reflexivity]. unfold cc, cv. rewrite LA, LN0, LN1, LN2, SZ, SX. f_equal. unfold z. destruct A as ([(D & DY) | D] & _); rewrite D; cbn [Nat.eqb]; [rewrite DY; reflexivity|rewrite (SY D); reflexivity].
    - assert (SZ' : fits1 z (n2 vp)). { unfold z. destruct A as ([(D & DY) | D] & _); rewrite D; cbn [Nat.eqb]; [right; reflexivity|]. destruct (SY D) as (y & -> & Y). exact Y. }
      assert (FIT : forall x n, fits1 x n -> fit1 n x = Some n).
      { intros x n [-> | ->]; unfold fit1; rewrite ?Nat.eqb_refl; [reflexivity|]. destruct (Nat.eqb_spec n 1); [subst; reflexivity|]. reflexivity. }
      destruct CO as (C1 & C2 & C3). unfold stages_call. f_equal. unfold courant_call. unfold Reqb at 1 2 3 5 6 7. destruct (Req_EM_T (o_cr_max o) 0) as [?|X1]; [contradiction|]. destruct (Req_EM_T (o_dt o) 0) as [?|X2]; [contradiction|]. destruct (Req_EM_T (o_space_order o) 0) as [?|X3]; [contradiction|].
      cbn [orb]. destruct (Rltb (o_cr_max o) 0); [reflexivity|]. destruct (Rltb (o_dt o) 0); [reflexivity|]. destruct (Rltb (o_space_order o) 1); [reflexivity|].
      assert (Z1 : forall p0 p1 p2 p3, existsb (fun x => Reqb x 0) (flattenF (mkArr p0 p1 p2 p3 (fun _ _ _ => k))) = false).
      { intros p0 p1 p2 p3. destruct (existsb _ _) eqn:Q; [|reflexivity]. exfalso. apply existsb_exists in Q as (y & I & E). unfold flattenF in I. apply in_map_iff in I as (((i1, i2), i3) & <- & _). cbn [av] in E. unfold Reqb in E. destruct (Req_EM_T k 0); [contradiction|discriminate]. }
      assert (ZC : existsb (fun x => Reqb x 0) (flattenF cc) = false) by apply Z1. assert (ZV : existsb (fun x => Reqb x 0) (flattenF cv) = false) by apply Z1. rewrite ZC, ZV. unfold broadcast at 2. rewrite (proj2 (same_like vp1 cv)) by (apply like_sym, LV). unfold broadcast.
      destruct (same_shape vp1 cc) eqn:SS.
      + apply same_like in SS as (SA & S0 & S1 & S2). reflexivity.
      + assert (Nat.eqb (adim vp1) (adim cc) = true) as -> by (apply Nat.eqb_eq; exact LA). rewrite <- LN0 in SZ. rewrite <- LN1 in SX. rewrite <- LN2 in SZ'. change (n0 cc) with (S m). change (n1 cc) with nx. change (n2 cc) with z.
        rewrite (FIT _ _ SZ), (FIT _ _ SX), (FIT _ _ SZ'). unfold stretch at 1. rewrite !Nat.eqb_refl. cbn [andb]. unfold stretch. destruct (_ && _); reflexivity. }
  rewrite ST, stages_ok by assumption. rewrite (stages_grade rnd o b vp1 _ (n0 vp1) (S m)) by (apply pos; first [lia|apply F1]). rewrite (proj1 (proj2 L1)). reflexivity.
Qed.

(** ---- calls that fit ---- *)
(** velocity_data with its numbers of grid points and a box of the right length: the size function of that array, whatever the file
    name, the contents of the file, byte_order, axes_order and axes_order_sort. *)
Lemma regrade_same uf rnd o b vp m : INR (S m) = INR (n0 vp) -> 0 < INR (n0 vp) -> size_function uf rnd (regraded o (o_grade o * (INR (n0 vp) / INR (S m)))) b vp = size_function uf rnd o b vp.
Proof. intros E P. rewrite E. replace (o_grade o * (INR (n0 vp) / INR (n0 vp))) with (o_grade o) by (field; lra). destruct o; reflexivity. Qed.
Definition positive_sizes (o : opts) : Prop := 0 < o_hmin o /\ 0 < o_hmax o.
Lemma fitting_call uf rnd o b vp nx ny : array_ok vp -> box_fits vp b -> positive_sizes o -> nx = n1 vp -> (adim vp = 3%nat -> ny = Some (n2 vp)) ->
  sizing_call uf rnd true true o b (Ok (vp, Some (n0 vp), Some nx, ny)) = size_function uf rnd o b vp.
Proof.
  intros A B (H0 & H1) -> NY. destruct (n0 vp) as [|m] eqn:E; [destruct A as (_ & A & _); lia|].
  assert (Y : match bbox_dim b with Ok 3%nat => ny <> None | _ => True end).
  { rewrite (box_dim vp b A B). destruct A as ([(D & _) | D] & _); rewrite D in *; [exact Logic.I|rewrite NY by reflexivity; discriminate]. }
  assert (Q : forall x, x = size_function uf rnd (regraded o (o_grade o * (INR (n0 vp) / INR (S m)))) b vp -> x = size_function uf rnd o b vp).
  { intros x ->. apply regrade_same; [rewrite E; reflexivity|rewrite E; apply pos; lia]. }
  apply Q. destruct (Classical_Prop.classic (varying o)) as [V|V].
  - apply vary_call; try assumption. apply box_usual, B.
  - apply constant_call; try assumption. left. auto.
Qed.
Theorem C118_data : forall uf rnd o b vp asraw name f ro, array_ok vp -> box_fits vp b -> positive_sizes o ->
  r_nz ro = Some (n0 vp) -> r_nx ro = Some (n1 vp) -> (adim vp = 3%nat -> r_ny ro = Some (n2 vp)) ->
  sizing_call uf rnd true true o b (velocities asraw name f ro (Some vp)) = size_function uf rnd o b vp.
Proof. intros uf rnd o b vp asraw name f ro A B H EZ EX EY. cbn [velocities]. rewrite EZ, EX. apply fitting_call; auto. Qed.
Print Assumptions C118_data.
(** without velocity_data: a SEG-Y file with a 4-number box (nz, nx, ny, byte_order, ... are ignored), a raw file with a 6-number box *)
Theorem C118_segy : forall uf rnd o b asraw name nz traces ro, ends_with ".segy" name = true -> (0 < nz)%nat -> traces <> [] -> length b = 4%nat -> positive_sizes o ->
  sizing_call uf rnd true true o b (velocities asraw name (SegyFile nz traces) ro None) = size_function uf rnd o b (read_segy nz traces).
Proof.
  intros uf rnd o b asraw name nz traces ro E NZ NT L H. cbn [velocities]. unfold read_velocity_model. rewrite E. cbn [rbind]. apply fitting_call; try assumption; try reflexivity; try discriminate.
  split; [left; split; reflexivity|]. cbn. destruct traces; [contradiction|]. cbn. lia.
Qed.
Print Assumptions C118_segy.
Theorem C118_raw : forall uf rnd o b asraw name samples ro nz nx ny vp, ends_with ".segy" name = false -> r_nz ro = Some nz -> r_nx ro = Some nx -> r_ny ro = Some ny -> (0 < nz /\ 0 < nx /\ 0 < ny)%nat ->
  read_velocity_model asraw name (RawFile samples) ro = Ok vp -> length b = 6%nat -> positive_sizes o ->
  sizing_call uf rnd true true o b (velocities asraw name (RawFile samples) ro None) = size_function uf rnd o b vp.
Proof.
  intros uf rnd o b asraw name samples ro nz nx ny vp E EZ EX EY (PZ & PX & PY) RD L H. cbn [velocities]. rewrite RD, E. cbn [rbind]. rewrite EZ, EX, EY.
  unfold read_velocity_model in RD. rewrite E, EZ, EX, EY in RD. unfold read_bin in RD. destruct (negb _); [discriminate|]. destruct (negb _); [discriminate|]. destruct (negb (is_perm3 _)) eqn:PM; [discriminate|].
  rewrite result_shape_perm in RD by (destruct (is_perm3 _); [reflexivity|discriminate]). injection RD as <-. set (vp := mkArr 3 nz nx ny _).
  apply (fitting_call uf rnd o b vp nx (Some ny)); try reflexivity; try assumption. split; [right; reflexivity|]. cbn. lia.
Qed.
Print Assumptions C118_raw.

(** ---- calls that do not fit ---- *)
(** A wrong nz goes unnoticed when sizes depend on the velocities: it acts as another grade (nx and ny are not looked at). *)
Theorem C118_wrong_nz : forall uf rnd o b vp asraw name f ro nz, array_ok vp -> box_fits vp b -> varying o -> r_nz ro = Some nz -> (0 < nz)%nat -> r_nx ro <> None -> (adim vp = 3%nat -> r_ny ro <> None) ->
  sizing_call uf rnd true true o b (velocities asraw name f ro (Some vp)) = size_function uf rnd (regraded o (o_grade o * (INR (n0 vp) / INR nz))) b vp.
Proof.
  intros uf rnd o b vp asraw name f ro nz A B V EZ PZ EX EY. cbn [velocities]. rewrite EZ. destruct (r_nx ro) as [nx|]; [|contradiction]. destruct nz as [|m]; [lia|].
  apply vary_call; try assumption; [apply box_usual, B|]. rewrite (box_dim vp b A B). destruct A as ([(D & _) | D] & _); rewrite D in *; [exact Logic.I|apply EY; reflexivity].
Qed.
Print Assumptions C118_wrong_nz.
(** Constant sizes: numbers of points that do not fit are refused, unless a time step is given and every number is right or 1. *)
Lemma broadcast_like a b a' b' : broadcast a b = Some (a', b') -> like a' a -> adim a = adim b -> fits1 (n0 b) (n0 a) /\ fits1 (n1 b) (n1 a) /\ fits1 (n2 b) (n2 a).
Proof.
  unfold broadcast. destruct (same_shape a b) eqn:S.
  - intros _ _ _. apply same_like in S as (_ & S0 & S1 & S2). unfold fits1. rewrite S0, S1, S2. auto.
  - intros H L E. rewrite E, Nat.eqb_refl in H. destruct (fit1 (n0 a) (n0 b)) as [m0|] eqn:F0; [|discriminate]. destruct (fit1 (n1 a) (n1 b)) as [m1|] eqn:F1; [|discriminate]. destruct (fit1 (n2 a) (n2 b)) as [m2|] eqn:F2; [|discriminate].
    injection H as <- <-. assert (L' : m0 = n0 a /\ m1 = n1 a /\ m2 = n2 a).
    { unfold stretch in L. destruct (Nat.eqb (n0 a) m0 && Nat.eqb (n1 a) m1 && Nat.eqb (n2 a) m2) eqn:Q; [|destruct L as (_ & L); cbn [n0 n1 n2] in L; intuition]. rewrite !andb_true_iff, !Nat.eqb_eq in Q. intuition. }
    destruct L' as (-> & -> & ->). assert (G : forall x y, fit1 x y = Some x -> fits1 y x).
    { intros x y. unfold fit1, fits1. destruct (Nat.eqb_spec x y); [auto|]. destruct (Nat.eqb_spec x 1); [intros W; injection W; intros; left; congruence|]. destruct (Nat.eqb_spec y 1); [auto|discriminate]. }
    auto.
Qed.
Theorem C118_wrong_shape : forall uf rnd o b vp asraw name f ro nz nx, array_ok vp -> box_fits vp b -> positive_sizes o -> ~ varying o -> r_nz ro = Some nz -> r_nx ro = Some nx ->
  let right := nz = n0 vp /\ nx = n1 vp /\ (adim vp = 3%nat -> r_ny ro = Some (n2 vp)) in
  let stretchable := courant_on o /\ (0 < nz)%nat /\ fits1 nz (n0 vp) /\ fits1 nx (n1 vp) /\ (adim vp = 3%nat -> exists y, r_ny ro = Some y /\ fits1 y (n2 vp)) in
  (right \/ stretchable -> sizing_call uf rnd true true o b (velocities asraw name f ro (Some vp)) = size_function uf rnd (regraded o (o_grade o * (INR (n0 vp) / INR nz))) b vp) /\
  (~ right -> ~ stretchable -> exists e, sizing_call uf rnd true true o b (velocities asraw name f ro (Some vp)) = SzErr e).
Proof.
  intros uf rnd o b vp asraw name f ro nz nx A B (H0 & H1) V EZ EX right stretchable. cbn [velocities]. rewrite EZ, EX. split.
  - intros G. destruct nz as [|m]; [exfalso; destruct G as [(G & _)|(_ & G & _)]; [destruct A as (_ & A & _)|]; lia|].
    apply constant_call; try assumption.
    + rewrite (box_dim vp b A B). destruct A as ([(D & _) | D] & _); rewrite D in *; [exact Logic.I|]. destruct G as [(_ & _ & G)|(_ & _ & _ & _ & G)]; [rewrite G by exact D; discriminate|destruct (G D) as (y & -> & _); discriminate].
    + destruct G as [G|(G1 & _ & G2)]; [left; exact G|right; split; assumption].
  - intros NR NS. rewrite call_stages. destruct (prepare_vp o vp) as [vp1|e|] eqn:E1; cbn [sbind]; [|eauto|].
    2:{ exfalso. revert E1. unfold prepare_vp, replace_water. destruct (water_trigger _); [|discriminate]. destruct (o_vp_water o); [|discriminate]. destruct (_ || _); discriminate. }
    rewrite (box_dim vp b A B). rewrite (vary_false o V). pose proof (like_prepare _ _ _ E1) as L1. pose proof (filled_like _ _ L1 A) as F1.
    destruct (constant_size (adim vp) (o_hmin o) (Some nz) (Some nx) (r_ny ro)) as [c|e] eqn:C; [|eauto]. cbn [sbind].
    assert (DC : adim c = adim vp /\ n0 c = nz /\ n1 c = nx /\ (adim vp = 3%nat -> r_ny ro = Some (n2 c)) /\ (adim vp = 2%nat -> n2 c = 1%nat) /\ av c = fun _ _ _ => o_hmin o).
    { unfold constant_size in C. destruct A as ([(D & _) | D] & _); rewrite D in *; cbn [Nat.eqb] in C; [|destruct (r_ny ro) as [y|]; [|discriminate]]; injection C as <-; cbn; repeat split; intros; try reflexivity; try discriminate. }
    destruct DC as (D1 & D2 & D3 & D4 & D5 & D6).
    assert (NL : ~ like (clamp (o_hmin o) (o_hmax o) c) vp1).
    { intros (Q1 & Q2 & Q3 & Q4). cbn in Q2, Q3, Q4. destruct L1 as (_ & L10 & L11 & L12). apply NR. split; [congruence|]. split; [congruence|]. intros D. rewrite (D4 D). f_equal. congruence. }
    assert (G : (exists e, courant_call vp1 (clamp (o_hmin o) (o_hmax o) c) (o_cr_max o) (o_dt o) (o_space_order o) = SzErr e) \/
                exists a2, courant_call vp1 (clamp (o_hmin o) (o_hmax o) c) (o_cr_max o) (o_dt o) (o_space_order o) = SzOk a2 /\ ((0 < nz)%nat -> ~ like a2 vp1)).
    { unfold courant_call. destruct (Reqb (o_cr_max o) 0 || Reqb (o_dt o) 0 || Reqb (o_space_order o) 0) eqn:OFF; [right; eexists; split; [reflexivity|auto]|].
      destruct (Rltb (o_cr_max o) 0); [eauto|]. destruct (Rltb (o_dt o) 0); [eauto|]. destruct (Rltb (o_space_order o) 1); [eauto|].
      destruct (broadcast vp1 _) as [(v', a')|] eqn:BC; [|eauto].
      assert (Z1 : existsb (fun x => Reqb x 0) (flattenF (clamp (o_hmin o) (o_hmax o) c)) = false).
      { destruct (existsb _ _) eqn:Q; [|reflexivity]. exfalso. apply existsb_exists in Q as (y & I & E). unfold flattenF in I. apply in_map_iff in I as (((i1, i2), i3) & <- & _). cbn in E. rewrite D6 in E. unfold Reqb in E.
        destruct (Req_EM_T _ 0) as [K|]; [|discriminate]. destruct (Rltb (o_hmin o) (o_hmin o)), (Rgtb _ _); lra. }
      rewrite Z1. right. eexists. split; [reflexivity|]. intros PZ L. assert (L' : like v' vp1) by exact L. destruct (broadcast_like _ _ _ _ BC L') as (W0 & W1 & W2); [cbn; rewrite D1; apply L1|]. cbn in W0, W1, W2.
      destruct L1 as (L1A & L10 & L11 & L12). rewrite D2, L10 in W0. rewrite D3, L11 in W1. rewrite L12 in W2. apply NS. split; [|split; [exact PZ|split; [exact W0|split; [exact W1|]]]].
      - unfold courant_on. rewrite !orb_false_iff in OFF. unfold Reqb in OFF. destruct (Req_EM_T (o_cr_max o) 0), (Req_EM_T (o_dt o) 0), (Req_EM_T (o_space_order o) 0); intuition discriminate.
      - intros D. exists (n2 c). split; [exact (D4 D)|exact W2]. }
    destruct nz as [|m]; [destruct G as [(e & ->)|(a2 & -> & _)]; cbn [sbind]; eauto|].
    unfold stages_call. destruct G as [(e & ->)|(a2 & -> & NL2)]; cbn [sbind]; [eauto|].
    destruct (gradation a2 (o_grade o) _) as [a3|e|] eqn:GR; cbn [sbind]; [|eauto|].
    + apply (pad_refused rnd o b a3 vp1 F1). intros L3. apply (NL2 ltac:(lia)). eapply like_trans; [apply like_sym, (like_gradation _ _ _ _ GR)|exact L3].
    + exfalso. revert GR. unfold gradation. destruct (Reqb _ _); [discriminate|]. destruct (Rltb _ _); [discriminate|]. destruct (limgrad _ _ _ _ _ _ _ _); discriminate.
Qed.
Print Assumptions C118_wrong_shape.
(** A number of points left out beside velocity_data (nz, nx, with a 6-number box also ny), an unknown keyword: refused. *)
Lemma prepared_or o vp : (exists v, prepare_vp o vp = SzOk v) \/ exists e, prepare_vp o vp = SzErr e.
Proof. unfold prepare_vp, replace_water. destruct (water_trigger _); [|eauto]. destruct (o_vp_water o); [|eauto]. destruct (_ || _); eauto. Qed.
Theorem C118_missing : forall uf rnd known tuple o b vp asraw name f ro,
  r_nz ro = None \/ r_nx ro = None \/ length b = 6%nat /\ r_ny ro = None \/ known = false ->
  exists e, sizing_call uf rnd known tuple o b (velocities asraw name f ro (Some vp)) = SzErr e.
Proof.
  intros uf rnd known tuple o b vp asraw name f ro M. cbn [velocities sizing_call]. destruct (prepared_or o vp) as [(v & ->)|(e & ->)]; cbn [sbind]; [|eauto].
  destruct (bbox_dim b) as [dim|e] eqn:BD; [|eauto]. destruct (constant_size dim (o_hmin o) (r_nz ro) (r_nx ro) (r_ny ro)) as [c|e] eqn:C; [|eauto].
  destruct known; [|cbn [negb]; eauto]. exfalso. unfold constant_size in C. destruct M as [M|[M|[(L & M)|M]]]; [rewrite M in C|rewrite M in C|rewrite M in C|]; try discriminate.
  - destruct (r_nz ro); discriminate.
  - unfold bbox_dim in BD. rewrite L in BD. cbn in BD. injection BD as <-. cbn [Nat.eqb] in C. destruct (r_nz ro); [|discriminate]. destruct (r_nx ro); discriminate.
Qed.
Print Assumptions C118_missing.
(** A 3D array (every raw file is one) with a 4-number box is never accepted. *)
Lemma short_refused rnd o b elen tuple vp1 a1 : box_too_short vp1 b = true -> forall r, stages_call rnd o b elen tuple vp1 a1 <> SzOk r.
Proof.
  intros S r. unfold stages_call. destruct (courant_call _ _ _ _ _) as [a2| |]; cbn [sbind]; [|discriminate|discriminate]. destruct (gradation _ _ _) as [a3| |]; cbn [sbind]; [|discriminate|discriminate].
  unfold pad_call. rewrite S. destruct (Rltb _ _); [discriminate|]. destruct (Rgtb (o_domain_pad o) 0); cbn [sbind]; [discriminate|]. unfold interpolant_call. rewrite S. discriminate.
Qed.
Theorem C118_short_box : forall uf rnd known tuple o b vp nz nx ny r, adim vp = 3%nat -> length b = 4%nat ->
  sizing_call uf rnd known tuple o b (Ok (vp, nz, nx, ny)) <> SzOk r.
Proof.
  intros uf rnd known tuple o b vp nz nx ny r D L. destruct known; [|cbn [sizing_call]; destruct (prepare_vp o vp); cbn [sbind]; try discriminate; destruct (bbox_dim b); [|discriminate]; destruct (constant_size _ _ _ _ _); discriminate].
  rewrite call_stages. destruct (prepare_vp o vp) as [vp1| |] eqn:E1; cbn [sbind]; [|discriminate|discriminate]. destruct (bbox_dim b) as [dim|]; [|discriminate]. destruct (constant_size _ _ _ _ _) as [c0|]; [|discriminate].
  assert (S : box_too_short vp1 b = true) by (unfold box_too_short; rewrite (proj1 (like_prepare _ _ _ E1)), D, L; reflexivity).
  destruct (if _ || _ then _ else _) as [a9| |]; cbn [sbind]; [|discriminate|discriminate]. destruct nz as [[|m]|]; [|apply short_refused, S|]; destruct (courant_call _ _ _ _ _); cbn [sbind]; discriminate.
Qed.
Print Assumptions C118_short_box.
(** A 2D array (every SEG-Y file is one) with a 6-number box: refused for constant sizes; otherwise the last two numbers are ignored and,
    without padding, the object claims the 3D box although its function is that of the 2D one. *)
Lemma bget4 b i : (i < 4)%nat -> bget (firstn 4 b) i = bget b i.
Proof. intros H. unfold bget. do 4 (destruct b as [|? b]; [destruct i; reflexivity|]; destruct i as [|i]; [reflexivity|]). lia. Qed.
Theorem C118_long_box : forall uf rnd o b vp m nx ny, array_ok vp -> adim vp = 2%nat -> length b = 6%nat ->
  (varying o -> sizing_call uf rnd true true o b (Ok (vp, Some (S m), Some nx, Some ny)) =
    sbind (size_function uf rnd (regraded o (o_grade o * (INR (n0 vp) / INR (S m)))) (firstn 4 b) vp) (fun r => let '(b', f, h) := r in SzOk ((if Rgtb (o_domain_pad o) 0 then b' else b), f, h))) /\
  (~ varying o -> forall r, sizing_call uf rnd true true o b (Ok (vp, Some (S m), Some nx, Some ny)) <> SzOk r).
Proof.
  intros uf rnd o b vp m nx ny A D L. split.
  - intros V. assert (U : usual_box b vp) by (intros E; lia). rewrite vary_call; try assumption; [|unfold bbox_dim; rewrite L; discriminate].
    set (o' := regraded o _). rewrite !function_stages. destruct (prepare_vp o' vp) as [vp1| |] eqn:E1; cbn [sbind]; [|reflexivity|reflexivity].
    assert (bbox_dim b = Ok 3%nat) as -> by (unfold bbox_dim; rewrite L; reflexivity). assert (bbox_dim (firstn 4 b) = Ok 2%nat) as -> by (unfold bbox_dim; rewrite firstn_length, L; reflexivity).
    destruct (initial_size uf o' vp1) as [a0| |] eqn:E0; cbn [sbind]; [|reflexivity|reflexivity]. unfold stages. rewrite !bget4 by lia. set (elen := (bget b 1 - bget b 0) / INR (n0 vp1)).
    pose proof (like_prepare _ _ _ E1) as L1. pose proof (like_trans _ _ _ (like_clamp (o_hmin o') (o_hmax o') a0) (like_initial _ _ _ _ E0)) as L0.
    destruct (courant vp1 _ _ _ _) as [a2| |] eqn:E2; cbn [sbind]; [|reflexivity|reflexivity]. pose proof (like_courant _ _ _ _ _ _ L0 E2) as L2. clearbody elen.
    destruct (gradation a2 (o_grade o') elen) as [a3| |] eqn:E3; cbn [sbind]; [|reflexivity|reflexivity]. pose proof (like_trans _ _ _ (like_gradation _ _ _ _ E3) L2) as L3.
    assert (D1 : adim vp1 = 2%nat) by (rewrite (proj1 L1); exact D). assert (D3 : adim a3 = 2%nat) by (rewrite (proj1 L3); exact D1).
    assert (BI : forall a bb, adim a = 2%nat -> build_interpolant rnd a (firstn 4 bb) = build_interpolant rnd a bb) by (intros a bb DA; unfold build_interpolant, grid_vecs; rewrite DA; cbn [Nat.eqb]; rewrite !bget4 by lia; reflexivity).
    unfold domain_pad. change (o_domain_pad o') with (o_domain_pad o). destruct (Rltb (o_domain_pad o) 0); [reflexivity|]. destruct (Rgtb (o_domain_pad o) 0).
    + unfold pad_counts, dz_of, dx_of, padded_bbox. rewrite D1. cbn [Nat.eqb]. rewrite !bget4 by lia. destruct (pad_it _ _ _ _ _ a3) as [a4| |] eqn:P1; cbn [sbind]; [|reflexivity|reflexivity]. destruct (pad_it _ _ _ _ _ vp1) as [vp2| |] eqn:P2; cbn [sbind]; [|reflexivity|reflexivity].
      destruct (build_interpolant rnd a4 _); reflexivity.
    + cbn [sbind]. rewrite (BI a3 b D3). destruct (build_interpolant rnd a3 b); reflexivity.
  - intros V r. rewrite call_stages. destruct (prepare_vp o vp) as [vp1| |] eqn:E1; cbn [sbind]; [|discriminate|discriminate].
    assert (bbox_dim b = Ok 3%nat) as -> by (unfold bbox_dim; rewrite L; reflexivity). unfold constant_size. cbn [Nat.eqb]. rewrite (vary_false o V). cbn [sbind]. set (c := mkArr 3 (S m) nx ny (fun _ _ _ => o_hmin o)).
    pose proof (like_prepare _ _ _ E1) as L1. pose proof (filled_like _ _ L1 A) as F1. assert (D1 : adim vp1 = 2%nat) by (rewrite (proj1 L1); exact D).
    unfold stages_call. destruct (courant_call vp1 (clamp (o_hmin o) (o_hmax o) c) _ _ _) as [a2| |] eqn:E2; cbn [sbind]; [|discriminate|discriminate].
    assert (D2 : adim a2 = 3%nat).
    { revert E2. unfold courant_call. destruct (_ || _ || _); [intros E; injection E as <-; reflexivity|]. destruct (Rltb (o_cr_max o) 0); [discriminate|]. destruct (Rltb (o_dt o) 0); [discriminate|]. destruct (Rltb (o_space_order o) 1); [discriminate|].
      unfold broadcast. assert (same_shape vp1 (clamp (o_hmin o) (o_hmax o) c) = false) as -> by (unfold same_shape; rewrite D1; reflexivity). assert (Nat.eqb (adim vp1) (adim (clamp (o_hmin o) (o_hmax o) c)) = false) as -> by (rewrite D1; reflexivity).
      assert (AE : adim (at_end vp1) = 3%nat) by (unfold at_end; rewrite D1; reflexivity). destruct (fit1 _ _) as [m0|]; [|discriminate]. destruct (fit1 _ _) as [m1|]; [|discriminate]. destruct (fit1 _ _) as [m2|]; [|discriminate].
      destruct (existsb _ _); [discriminate|]. intros E. injection E as <-. cbn [amap2 adim]. unfold stretch. destruct (_ && _); exact AE. }
    destruct (gradation a2 (o_grade o) _) as [a3| |] eqn:E3; cbn [sbind]; [|discriminate|discriminate]. pose proof (like_gradation _ _ _ _ E3) as L3.
    destruct (pad_refused rnd o b a3 vp1 F1) as (e & E); [intros (Q & _); rewrite (proj1 L3), D2, D1 in Q; discriminate|]. cbn [orb]. rewrite E. discriminate.
Qed.
Print Assumptions C118_long_box.
(** A box that is a list and not a tuple is refused exactly when the domain is not padded. *)
Theorem C118_list_box : forall uf rnd o b src, (0 < o_domain_pad o -> sizing_call uf rnd true false o b src = sizing_call uf rnd true true o b src) /\
  (~ 0 < o_domain_pad o -> forall r, sizing_call uf rnd true false o b src <> SzOk r).
Proof.
  intros uf rnd o b src. destruct src as [(((vp, nz), nx), ny)|e]; [|split; [reflexivity|discriminate]]. rewrite !call_stages. split; intros P.
  - unfold stages_call. unfold Rgtb at 3 6. unfold Rltb. destruct (Rlt_dec 0 (o_domain_pad o)); [|contradiction]. reflexivity.
  - intros r. destruct (prepare_vp o vp) as [vp1| |]; cbn [sbind]; [|discriminate|discriminate]. destruct (bbox_dim b) as [dim|]; [|discriminate]. destruct (constant_size _ _ _ _ _) as [c0|]; [|discriminate].
    destruct (if _ || _ then _ else _) as [a9| |]; cbn [sbind]; [|discriminate|discriminate]. destruct nz as [[|m]|]; [destruct (courant_call _ _ _ _ _); cbn [sbind]; discriminate| |destruct (courant_call _ _ _ _ _); cbn [sbind]; discriminate].
    unfold stages_call. destruct (courant_call _ _ _ _ _) as [a2| |]; cbn [sbind]; [|discriminate|discriminate]. destruct (gradation _ _ _) as [a3| |]; cbn [sbind]; [|discriminate|discriminate].
    destruct (pad_call _ _ _ _ _) as [((a4, vp2), b')| |]; cbn [sbind]; [|discriminate|discriminate]. destruct (interpolant_call _ _ _ _); cbn [sbind]; [|discriminate|discriminate].
    unfold Rgtb, Rltb. destruct (Rlt_dec 0 (o_domain_pad o)); [contradiction|]. discriminate.
Qed.
Print Assumptions C118_list_box.

(** the hypotheses of the theorems above are met: velocity_data of shape (2, 2) with the right nz, nx; constant sizes with nz = 3 *)
Example C118_case : (exists f, sizing_call (fun a => a) (fun x => x) true true c16_opts c16_box (velocities (fun _ => []) "vp.bin" (RawFile []) (mkRead true (Some 2) (Some 2) None [0; 1; 2] OrdF)%nat (Some (sq2 1000 1100))) = SzOk (c16_box, f, 1) /\ f [1; 1/4] = 21/20) /\
  varying c16_opts /\
  (array_ok (sq2 1000 1100) /\ box_fits (sq2 1000 1100) c16_box /\ positive_sizes default_opts /\ ~ varying default_opts /\ ~ courant_on default_opts) /\
  exists e, sizing_call (fun a => a) (fun x => x) true true default_opts c16_box (velocities (fun _ => []) "vp.bin" (RawFile []) (mkRead true (Some 3) (Some 2) None [0; 1; 2] OrdF)%nat (Some (sq2 1000 1100))) = SzErr e.
Proof.
  assert (A : array_ok (sq2 1000 1100)) by (split; [left; split; reflexivity|cbn; lia]). assert (B : box_fits (sq2 1000 1100) c16_box) by reflexivity.
  assert (P : positive_sizes default_opts) by (split; cbn; lra). assert (V : ~ varying default_opts) by (intros [H|H]; cbn in H; lra). assert (CO : ~ courant_on default_opts) by (intros (H & H' & _); cbn in H, H'; lra).
  split; [|split; [unfold varying, c16_opts; cbn; lra|split; [auto|]]].
  - destruct (c16_size_function (fun a => a)) as (f & H1 & H2). exists f. split; [|rewrite H2, c16_value; lra].
    rewrite C118_data; [exact H1|exact A|exact B|split; cbn; lra|reflexivity|reflexivity|discriminate].
  - refine (proj2 (C118_wrong_shape (fun a => a) (fun x => x) default_opts c16_box (sq2 1000 1100) (fun _ => []) "vp.bin"%string (RawFile []) (mkRead true (Some 3) (Some 2) None [0; 1; 2] OrdF)%nat 3%nat 2%nat A B P V eq_refl eq_refl) _ _); [intros (H & _); discriminate|intros (H & _); exact (CO H)].
Qed.
