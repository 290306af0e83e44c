(** C20-C22: primitives. *)
From Coq Require Import List Reals Lra Psatz Lia Bool.
From Flocq Require Import Core Plus_error.
From Verif Require Import Model.Base Model.FastHJ Model.SDF Spec.Grid Spec.Geom Proofs.ListAux Proofs.Limgrad Proofs.Euclid.
Import ListNotations.
Local Open Scope R_scope.

Lemma ddisk_edist xc yc r x y : ddisk xc yc r [x; y] = edist [x; y] [xc; yc] - r.
Proof. unfold ddisk, edist, sqdist. f_equal. f_equal. ring. Qed.
Lemma dball_edist xc yc zc r x y z : dball xc yc zc r [x; y; z] = edist [x; y; z] [xc; yc; zc] - r.
Proof. unfold dball, edist, sqdist. f_equal. f_equal. ring. Qed.

(** ---- boxes ---- *)
Fixpoint bd (b p : list R) : R :=
  match b, p with
  | lo :: hi :: b', x :: p' =>
      match b' with [] => Rmax (lo - x) (x - hi) | _ => Rmax (Rmax (lo - x) (x - hi)) (bd b' p') end
  | _, _ => 0
  end.

Lemma rle_ext v w : (forall t, v <= t <-> w <= t) -> v = w.
Proof. intros H. apply Rle_antisym; [apply H|apply H]; lra. Qed.
Lemma Rmax_le a b t : Rmax a b <= t <-> a <= t /\ b <= t.
Proof. split; [intros H; pose proof (Rmax_l a b); pose proof (Rmax_r a b); lra|intros [H1 H2]; apply Rmax_lub; assumption]. Qed.
Lemma Rmax_lt a b t : Rmax a b < t <-> a < t /\ b < t.
Proof. split; [intros H; pose proof (Rmax_l a b); pose proof (Rmax_r a b); lra|intros [H1 H2]; apply Rmax_lub_lt; assumption]. Qed.
Lemma Rmin_ge a b t : t <= Rmin a b <-> t <= a /\ t <= b.
Proof. split; [intros H; pose proof (Rmin_l a b); pose proof (Rmin_r a b); lra|intros [H1 H2]; apply Rmin_glb; assumption]. Qed.
Lemma Rmin_gt a b t : t < Rmin a b <-> t < a /\ t < b.
Proof. split; [intros H; pose proof (Rmin_l a b); pose proof (Rmin_r a b); lra|intros [H1 H2]; apply Rmin_glb_lt; assumption]. Qed.
Lemma stdmin_Rmin a b : stdmin a b = Rmin a b.
Proof. unfold stdmin. destruct (Rltb b a) eqn:E; [apply Rltb_true in E; rewrite Rmin_right by lra|apply Rltb_false in E; rewrite Rmin_left by lra]; reflexivity. Qed.

Lemma neg_le v t : - v <= t <-> - t <= v. Proof. split; lra. Qed.

Lemma cpp_python_rect rnd x1 x2 y1 y2 p : c_drectangle rnd x1 x2 y1 y2 p = drectangle rnd x1 x2 y1 y2 p.
Proof. destruct p as [|x [|y [|? ?]]]; try reflexivity. unfold c_drectangle, drectangle. cbv zeta. rewrite !stdmin_Rmin. reflexivity. Qed.
Lemma cpp_python_block rnd x1 x2 y1 y2 z1 z2 p : c_dblock rnd x1 x2 y1 y2 z1 z2 p = dblock rnd x1 x2 y1 y2 z1 z2 p.
Proof. destruct p as [|x [|y [|z [|? ?]]]]; try reflexivity. unfold c_dblock, dblock. cbv zeta. rewrite !stdmin_Rmin. reflexivity. Qed.

Lemma rect_bd x1 x2 y1 y2 x y : c_drectangle (fun t => t) x1 x2 y1 y2 [x; y] = bd [x1; x2; y1; y2] [x; y].
Proof.
  rewrite cpp_python_rect. apply rle_ext. intros t. unfold drectangle, bd. rewrite !Rmax_le, neg_le, !Rmin_ge. split; intros; lra.
Qed.
Lemma block_bd x1 x2 y1 y2 z1 z2 x y z :
  c_dblock (fun t => t) x1 x2 y1 y2 z1 z2 [x; y; z] = bd [x1; x2; y1; y2; z1; z2] [x; y; z].
Proof.
  rewrite cpp_python_block. apply rle_ext. intros t. unfold dblock, bd. rewrite !Rmax_le, neg_le, !Rmin_ge. split; intros; lra.
Qed.

(** a well-formed pair: box of length 2n, point of length n, n>0 *)
Inductive fits : list R -> list R -> Prop :=
| fits_one lo hi x : fits [lo; hi] [x]
| fits_cons lo hi l h b x p : fits (l :: h :: b) p -> fits (lo :: hi :: l :: h :: b) (x :: p).
Lemma bd_cons lo hi b x p : fits b p -> bd (lo :: hi :: b) (x :: p) = Rmax (Rmax (lo - x) (x - hi)) (bd b p).
Proof. intros H. inversion H; subst; reflexivity. Qed.
Lemma fits_cons' lo hi b x p : fits b p -> fits (lo :: hi :: b) (x :: p).
Proof. intros H. inversion H; subst; constructor; assumption. Qed.

Lemma bd_box b p : fits b p -> (bd b p <= 0 <-> in_box b p).
Proof.
  intros H. induction H as [lo hi x|lo hi l h b x p H IH].
  - cbn [bd]. rewrite Rmax_le. split; [intros; constructor; [lra|constructor]|intros I; inversion I; subst; lra].
  - rewrite bd_cons by exact H. rewrite !Rmax_le. rewrite IH. split.
    + intros [? ?]. constructor; [lra|assumption].
    + intros I. inversion I; subst. split; [lra|assumption].
Qed.
Lemma bd_interior b p : fits b p -> (bd b p < 0 <-> in_interior b p).
Proof.
  intros H. induction H as [lo hi x|lo hi l h b x p H IH].
  - cbn [bd]. rewrite Rmax_lt. split; [intros; constructor; [lra|constructor]|intros I; inversion I; subst; lra].
  - rewrite bd_cons by exact H. rewrite !Rmax_lt. rewrite IH. split.
    + intros [? ?]. constructor; [lra|assumption].
    + intros I. inversion I; subst. split; [lra|assumption].
Qed.
Lemma bd_boundary b p : fits b p -> (bd b p = 0 <-> on_boundary b p).
Proof.
  intros H. unfold on_boundary. rewrite <- (bd_box b p H), <- (bd_interior b p H). split; intros; lra.
Qed.

Lemma bd_lip b p q d : fits b p -> fits b q -> 0 <= d -> Forall2 (fun x y => Rabs (x - y) <= d) p q -> bd b p <= bd b q + d.
Proof.
  intros H. revert q. induction H as [lo hi x|lo hi l h b x p H IH]; intros q Hq Hd HF.
  - inversion Hq; subst. inversion HF; subst. cbn [bd]. apply Rmax_le.
    pose proof (Rmax_l (lo - x0) (x0 - hi)). pose proof (Rmax_r (lo - x0) (x0 - hi)).
    apply Rabs_le_iff in H2. lra.
  - inversion Hq; subst. inversion HF; subst. rewrite !bd_cons by assumption.
    specialize (IH p0 ltac:(assumption) Hd ltac:(assumption)).
    pose proof (Rmax_l (Rmax (lo - x0) (x0 - hi)) (bd (l :: h :: b) p0)).
    pose proof (Rmax_r (Rmax (lo - x0) (x0 - hi)) (bd (l :: h :: b) p0)).
    pose proof (Rmax_l (lo - x0) (x0 - hi)). pose proof (Rmax_r (lo - x0) (x0 - hi)).
    match goal with HR : Rabs _ <= d |- _ => apply Rabs_le_iff in HR end.
    apply Rmax_le. split; [apply Rmax_le; lra|lra].
Qed.

Lemma fits_length b p q : fits b p -> fits b q -> length p = length q.
Proof.
  intros H. revert q. induction H as [lo hi x|lo hi l h b x p H IH]; intros q Hq; inversion Hq; subst; cbn; auto.
Qed.

Lemma bd_lipschitz b p q : fits b p -> fits b q -> Rabs (bd b p - bd b q) <= edist p q.
Proof.
  intros Hp Hq. pose proof (fits_length b p q Hp Hq) as HL. pose proof (coord_le_edist p q HL) as F1.
  pose proof (coord_le_edist q p (eq_sym HL)) as F2. rewrite (edist_sym q p) in F2.
  pose proof (bd_lip b p q _ Hp Hq (edist_nonneg p q) F1). pose proof (bd_lip b q p _ Hq Hp (edist_nonneg p q) F2).
  apply Rabs_le_iff. lra.
Qed.

Lemma in_box_fits b p : fits b p -> forall q, in_box b q -> fits b q.
Proof.
  intros H. induction H as [lo hi x|lo hi l h b x p H IH]; intros q Hq; inversion Hq; subst.
  - match goal with I : in_box [] _ |- _ => inversion I end. constructor.
  - apply fits_cons'. auto.
Qed.

Lemma bd_outside b p q : fits b p -> in_box b q -> bd b p <= edist p q.
Proof.
  intros Hp Hq. pose proof (in_box_fits b p Hp q Hq) as Hf. pose proof (bd_lipschitz b p q Hp Hf) as HL.
  pose proof (proj2 (bd_box b q Hf) Hq). apply Rabs_le_iff in HL. lra.
Qed.

Lemma bd_attained b p : fits b p -> in_box b p -> exists q, on_boundary b q /\ edist p q = - bd b p.
Proof.
  intros H. induction H as [lo hi x|lo hi l h b x p H IH]; intros Hin.
  - inversion Hin; subst.
    assert (C : Rmax (lo - x) (x - hi) = lo - x \/ Rmax (lo - x) (x - hi) = x - hi) by (unfold Rmax; destruct (Rle_dec _ _); auto).
    cbn [bd]. destruct C as [-> | ->].
    + exists [lo]. split; [split; [constructor; [lra|constructor]|intros I; inversion I; subst; lra]|].
      unfold edist, sqdist. replace ((x - lo) ^ 2 + 0) with (Rsqr (x - lo)) by (unfold Rsqr; ring). rewrite sqrt_Rsqr by lra. ring.
    + exists [hi]. split; [split; [constructor; [lra|constructor]|intros I; inversion I; subst; lra]|].
      unfold edist, sqdist. replace ((x - hi) ^ 2 + 0) with (Rsqr (hi - x)) by (unfold Rsqr; ring). rewrite sqrt_Rsqr by lra. ring.
  - inversion Hin; subst. rewrite bd_cons by exact H.
    assert (D : forall u, edist (x :: p) (u :: p) = Rabs (x - u)).
    { intros u. unfold edist. cbn [sqdist]. rewrite sqdist_refl. replace ((x - u) ^ 2 + 0) with (Rsqr (x - u)) by (unfold Rsqr; ring). apply sqrt_Rsqr_abs. }
    assert (C : Rmax (Rmax (lo - x) (x - hi)) (bd (l :: h :: b) p) = lo - x \/ Rmax (Rmax (lo - x) (x - hi)) (bd (l :: h :: b) p) = x - hi \/
      Rmax (Rmax (lo - x) (x - hi)) (bd (l :: h :: b) p) = bd (l :: h :: b) p).
    { unfold Rmax. destruct (Rle_dec _ _); destruct (Rle_dec _ _); auto. }
    destruct C as [-> | [-> | -> ]].
    + exists (lo :: p). split; [split; [constructor; [lra|assumption]|intros I; inversion I; subst; lra]|].
      rewrite D, Rabs_right by lra. ring.
    + exists (hi :: p). split; [split; [constructor; [lra|assumption]|intros I; inversion I; subst; lra]|].
      rewrite D, Rabs_left1 by lra. ring.
    + destruct (IH ltac:(assumption)) as (q & [Q1 Q2] & E). exists (x :: q). split.
      * split; [constructor; assumption|]. intros I. inversion I; subst. contradiction.
      * rewrite <- E. unfold edist. cbn [sqdist]. f_equal. ring.
Qed.

Lemma bd_inside b p : fits b p -> in_box b p -> is_distance p (on_boundary b) (- bd b p).
Proof.
  intros Hp Hin. split; [|apply bd_attained; assumption].
  intros q Hq. pose proof (in_box_fits b p Hp q (proj1 Hq)) as Hf.
  pose proof (proj2 (bd_boundary b q Hf) Hq) as Hz. pose proof (bd_lipschitz b p q Hp Hf) as HL.
  apply Rabs_le_iff in HL. lra.
Qed.

(** rounded arithmetic: differences of representable numbers keep their sign *)
Definition sign_exact (rnd : R -> R) (F : R -> Prop) : Prop :=
  forall a c, F a -> F c -> (0 < rnd (a - c) <-> 0 < a - c) /\ (0 <= rnd (a - c) <-> 0 <= a - c).

Lemma rect_rounded_sign rnd F x1 x2 y1 y2 x y : sign_exact rnd F -> Forall F [x1; x2; y1; y2; x; y] ->
  (c_drectangle rnd x1 x2 y1 y2 [x; y] < 0 <-> in_interior [x1; x2; y1; y2] [x; y]) /\
  (c_drectangle rnd x1 x2 y1 y2 [x; y] <= 0 <-> in_box [x1; x2; y1; y2] [x; y]).
Proof.
  intros Hs HF. rewrite Forall_forall in HF.
  assert (G : forall a c, In a [x1; x2; y1; y2; x; y] -> In c [x1; x2; y1; y2; x; y] ->
    (0 < rnd (a - c) <-> 0 < a - c) /\ (0 <= rnd (a - c) <-> 0 <= a - c)) by (intros; apply Hs; auto).
  rewrite cpp_python_rect. unfold drectangle.
  replace (- y1 + y) with (y - y1) by ring. replace (- x1 + x) with (x - x1) by ring.
  destruct (G y y1) as [P1 Q1]; [cbn; tauto..|]. destruct (G y2 y) as [P2 Q2]; [cbn; tauto..|].
  destruct (G x x1) as [P3 Q3]; [cbn; tauto..|]. destruct (G x2 x) as [P4 Q4]; [cbn; tauto..|].
  set (m := Rmin _ _). split.
  - transitivity (0 < m); [split; lra|]. unfold m. rewrite !Rmin_gt, P1, P2, P3, P4. split.
    + intros. constructor; [lra|]. constructor; [lra|constructor].
    + intros I. inversion I as [|? ? ? ? ? ? I']; subst. inversion I'; subst. lra.
  - transitivity (0 <= m); [split; lra|]. unfold m. rewrite !Rmin_ge, Q1, Q2, Q3, Q4. split.
    + intros. constructor; [lra|]. constructor; [lra|constructor].
    + intros I. inversion I as [|? ? ? ? ? ? I']; subst. inversion I'; subst. lra.
Qed.

Lemma block_rounded_sign rnd F x1 x2 y1 y2 z1 z2 x y z : sign_exact rnd F -> Forall F [x1; x2; y1; y2; z1; z2; x; y; z] ->
  (c_dblock rnd x1 x2 y1 y2 z1 z2 [x; y; z] < 0 <-> in_interior [x1; x2; y1; y2; z1; z2] [x; y; z]) /\
  (c_dblock rnd x1 x2 y1 y2 z1 z2 [x; y; z] <= 0 <-> in_box [x1; x2; y1; y2; z1; z2] [x; y; z]).
Proof.
  intros Hs HF. rewrite Forall_forall in HF.
  assert (G : forall a c, In a [x1; x2; y1; y2; z1; z2; x; y; z] -> In c [x1; x2; y1; y2; z1; z2; x; y; z] ->
    (0 < rnd (a - c) <-> 0 < a - c) /\ (0 <= rnd (a - c) <-> 0 <= a - c)) by (intros; apply Hs; auto).
  rewrite cpp_python_block. unfold dblock.
  replace (- y1 + y) with (y - y1) by ring. replace (- x1 + x) with (x - x1) by ring. replace (- z1 + z) with (z - z1) by ring.
  destruct (G y y1) as [P1 Q1]; [cbn; tauto..|]. destruct (G y2 y) as [P2 Q2]; [cbn; tauto..|].
  destruct (G x x1) as [P3 Q3]; [cbn; tauto..|]. destruct (G x2 x) as [P4 Q4]; [cbn; tauto..|].
  destruct (G z z1) as [P5 Q5]; [cbn; tauto..|]. destruct (G z2 z) as [P6 Q6]; [cbn; tauto..|].
  set (m := Rmin _ _). split.
  - transitivity (0 < m); [split; lra|]. unfold m. rewrite !Rmin_gt, P1, P2, P3, P4, P5, P6. split.
    + intros. constructor; [lra|]. constructor; [lra|]. constructor; [lra|constructor].
    + intros I. inversion I as [|? ? ? ? ? ? I']; subst. inversion I' as [|? ? ? ? ? ? I'']; subst. inversion I''; subst. lra.
  - transitivity (0 <= m); [split; lra|]. unfold m. rewrite !Rmin_ge, Q1, Q2, Q3, Q4, Q5, Q6. split.
    + intros. constructor; [lra|]. constructor; [lra|]. constructor; [lra|constructor].
    + intros I. inversion I as [|? ? ? ? ? ? I']; subst. inversion I' as [|? ? ? ? ? ? I'']; subst. inversion I''; subst. lra.
Qed.

(** binary64 *)
Lemma b64_sign_exact : sign_exact rnd64 (generic_format radix2 (FLT_exp (-1074) 53)).
Proof.
  intros a c Ha Hc. unfold rnd64.
  assert (M : forall u v, u <= v -> round radix2 (FLT_exp (-1074) 53) ZnearestE u <= round radix2 (FLT_exp (-1074) 53) ZnearestE v)
    by (intros; apply round_le; [apply FLT_exp_valid; reflexivity|apply valid_rnd_N|assumption]).
  assert (R0 : round radix2 (FLT_exp (-1074) 53) ZnearestE 0 = 0) by (apply round_0; apply valid_rnd_N).
  assert (Hround : a + - c <> 0 -> round radix2 (FLT_exp (-1074) 53) ZnearestE (a + - c) <> 0).
  { assert (VE : Valid_exp (FLT_exp (-1074) 53)) by (apply FLT_exp_valid; reflexivity).
    assert (MO : Monotone_exp (FLT_exp (-1074) 53)) by apply FLT_exp_monotone.
    intros Hn. apply round_plus_neq_0; [typeclasses eauto..|exact Ha|apply generic_format_opp; exact Hc|exact Hn]. }
  assert (P : 0 < a - c -> 0 < round radix2 (FLT_exp (-1074) 53) ZnearestE (a - c)).
  { intros Hpos.
    assert (Hne : round radix2 (FLT_exp (-1074) 53) ZnearestE (a + - c) <> 0).
    { apply Hround; lra. }
    replace (a - c) with (a + - c) by ring. pose proof (M 0 (a + - c) ltac:(lra)). rewrite R0 in H. lra. }
  assert (N : a - c <= 0 -> round radix2 (FLT_exp (-1074) 53) ZnearestE (a - c) <= 0).
  { intros H. pose proof (M (a - c) 0 H). rewrite R0 in H0. exact H0. }
  assert (NN : a - c < 0 -> round radix2 (FLT_exp (-1074) 53) ZnearestE (a - c) < 0).
  { intros Hneg. assert (Hne : round radix2 (FLT_exp (-1074) 53) ZnearestE (a + - c) <> 0).
    { apply Hround; lra. }
    pose proof (N ltac:(lra)). replace (a - c) with (a + - c) in * by ring. lra. }
  split; split; intros H.
  - destruct (Rlt_or_le 0 (a - c)) as [L|L]; [exact L|]. specialize (N L). lra.
  - auto.
  - destruct (Rle_or_lt 0 (a - c)) as [L|L]; [exact L|]. specialize (NN L). lra.
  - rewrite <- R0. apply M. exact H.
Qed.

(** ---- C22 ---- *)
Lemma length2 a b : length_ [a; b] = sqrt (a * a + b * b).
Proof. unfold length_; cbn [map fold_right]. f_equal. rewrite !pow2_abs. ring. Qed.

Lemma sqrt_sq_le s r : 0 <= s -> 0 <= r -> (sqrt s <= r <-> s <= r * r).
Proof.
  intros Hs Hr. split.
  - intros H. rewrite <- (sqrt_sqrt s Hs). pose proof (sqrt_pos s). nra.
  - intros H. rewrite <- (sqrt_square r Hr). apply sqrt_le_1; nra.
Qed.

Lemma sq2 a b : 0 <= a * a + b * b.
Proof. pose proof (Rle_0_sqr a). pose proof (Rle_0_sqr b). unfold Rsqr in *. lra. Qed.

Lemma sq_bound a r : 0 <= r -> a * a <= r * r -> - r <= a <= r.
Proof. intros H1 H2. split; destruct (Rle_or_lt 0 a); nra. Qed.
Lemma sq_nn a : 0 <= a * a. Proof. apply Rle_0_sqr. Qed.

Lemma rho_sq x z : sqrt (x * x + z * z) * sqrt (x * x + z * z) = x * x + z * z.
Proof. apply sqrt_sqrt. apply sq2. Qed.

Lemma torus_solid r1 r2 x y z : 0 < r1 -> 0 < r2 ->
  (dtorus r1 r2 [x; y; z] <= 0 <-> exists cx cz, cx * cx + cz * cz = r1 * r1 /\ edist [x; y; z] [cx; 0; cz] <= r2).
Proof.
  intros H1 H2. unfold dtorus. rewrite !length2.
  pose proof (rho_sq x z) as Er. pose proof (sqrt_pos (x * x + z * z)) as Hr0. set (rho := sqrt (x * x + z * z)) in *.
  assert (A : sqrt ((rho - r1) * (rho - r1) + y * y) - r2 <= 0 <-> (rho - r1) * (rho - r1) + y * y <= r2 * r2).
  { pose proof (sqrt_sq_le ((rho - r1) * (rho - r1) + y * y) r2 (sq2 _ _) (Rlt_le _ _ H2)) as Q. split; intros; [apply Q; lra|apply Q in H; lra]. }
  rewrite A.
  assert (B : forall cx cz, edist [x; y; z] [cx; 0; cz] <= r2 <-> (x - cx) * (x - cx) + y * y + (z - cz) * (z - cz) <= r2 * r2).
  { intros cx cz. unfold edist, sqdist.
    replace ((x - cx) ^ 2 + ((y - 0) ^ 2 + ((z - cz) ^ 2 + 0))) with ((x - cx) * (x - cx) + y * y + (z - cz) * (z - cz)) by ring.
    apply sqrt_sq_le; [|lra]. pose proof (sq2 (x - cx) y). pose proof (Rle_0_sqr (z - cz)). unfold Rsqr in *. lra. }
  split.
  - intros H. destruct (Req_dec rho 0) as [E|E].
    + exists r1, 0. split; [ring|]. apply B. rewrite E in *. assert (x = 0) by nra. assert (z = 0) by nra. subst. nra.
    + exists (r1 / rho * x), (r1 / rho * z). split.
      * replace (r1 / rho * x * (r1 / rho * x) + r1 / rho * z * (r1 / rho * z)) with (r1 / rho * (r1 / rho) * (x * x + z * z)) by ring.
        rewrite <- Er. field. exact E.
      * apply B. 
        replace ((x - r1 / rho * x) * (x - r1 / rho * x) + y * y + (z - r1 / rho * z) * (z - r1 / rho * z))
          with ((1 - r1 / rho) * (1 - r1 / rho) * (x * x + z * z) + y * y) by ring.
        rewrite <- Er. replace ((1 - r1 / rho) * (1 - r1 / rho) * (rho * rho)) with ((rho - r1) * (rho - r1)) by (field; exact E). exact H.
  - intros (cx & cz & Ec & Hd). apply B in Hd.
    assert (CS : x * cx + z * cz <= rho * r1).
    { destruct (Rle_or_lt (x * cx + z * cz) (rho * r1)) as [L|L]; [exact L|exfalso].
      assert (0 <= rho * r1) by nra.
      assert ((rho * r1) * (rho * r1) < (x * cx + z * cz) * (x * cx + z * cz)) by (apply Rmult_le_0_lt_compat; lra).
      assert ((rho * r1) * (rho * r1) = (x * x + z * z) * (cx * cx + cz * cz)) by (rewrite <- Er, Ec; ring).
      assert (0 <= (x * cz - z * cx) * (x * cz - z * cx)) by (apply Rle_0_sqr). nra. }
    nra.
Qed.

Lemma torus_box r1 r2 x y z : 0 < r1 -> 0 < r2 -> dtorus r1 r2 [x; y; z] <= 0 ->
  in_box (d_bbox (Torus r1 r2 no_manip)) [x; y; z].
Proof.
  intros H1 H2 H. apply torus_solid in H; [|assumption..]. destruct H as (cx & cz & Ec & Hd).
  assert (Hm1 : r1 <= Rmax r1 r2) by apply Rmax_l. assert (Hm2 : r2 <= Rmax r1 r2) by apply Rmax_r.
  unfold Torus, make_prim, configure, build_translation, build_rotation, build_stretch, no_manip. cbn [m_stretch m_rot m_trans fst snd Nat.eqb].
  rewrite (proj2 (Reqb_true 0 0)) by reflexivity. cbn [andb fst d_bbox].
  set (m := Rmax r1 r2) in *.
  assert (B : (x - cx) * (x - cx) + y * y + (z - cz) * (z - cz) <= r2 * r2).
  { unfold edist, sqdist in Hd.
    replace ((x - cx) ^ 2 + ((y - 0) ^ 2 + ((z - cz) ^ 2 + 0))) with ((x - cx) * (x - cx) + y * y + (z - cz) * (z - cz)) in Hd by ring.
    apply sqrt_sq_le in Hd; [exact Hd| |lra]. pose proof (sq2 (x - cx) y). pose proof (sq_nn (z - cz)). lra. }
  pose proof (sq_nn cx). pose proof (sq_nn cz). pose proof (sq_nn (x - cx)). pose proof (sq_nn y). pose proof (sq_nn (z - cz)).
  assert (Hcx : - r1 <= cx <= r1) by (apply sq_bound; lra). assert (Hcz : - r1 <= cz <= r1) by (apply sq_bound; lra).
  assert (- r2 <= x - cx <= r2) by (apply sq_bound; lra). assert (- r2 <= z - cz <= r2) by (apply sq_bound; lra). assert (- r2 <= y <= r2) by (apply sq_bound; lra).
  repeat (constructor; [lra|]). constructor.
Qed.

Lemma cylinder_solid h r x y z : 0 < h -> 0 < r ->
  (d_eval (Cylinder h r no_manip) [x; y; z] <= 0 <-> x * x + z * z <= r * r /\ - (h / 2) <= y <= h / 2).
Proof.
  intros Hh Hr. unfold Cylinder, make_prim. cbn [d_eval]. unfold manipulate, no_manip. cbn [m_rot m_trans m_stretch].
  rewrite (proj2 (Reqb_true 0 0)) by reflexivity. unfold dcylinder. rewrite !length2.
  pose proof (sqrt_pos (x * x + z * z)) as Hr0. rewrite (Rabs_right (sqrt _)) by lra.
  assert (Q : sqrt (x * x + z * z) <= r <-> x * x + z * z <= r * r) by (apply sqrt_sq_le; [apply sq2|lra]).
  rewrite <- Q. set (rho := sqrt (x * x + z * z)) in *. set (d0 := rho - r). set (d1 := Rabs y - h / 2).
  assert (Y : d1 <= 0 <-> - (h / 2) <= y <= h / 2).
  { unfold d1. split; intros Hy; [apply Rabs_le_iff; lra|]. assert (Rabs y <= h / 2) by (apply Rabs_le_iff; lra). lra. }
  rewrite <- Y. transitivity (d0 <= 0 /\ d1 <= 0); [|unfold d0; split; intros [? ?]; split; lra].
  pose proof (sqrt_pos (Rmax d0 0 * Rmax d0 0 + Rmax d1 0 * Rmax d1 0)) as Hs. split.
  - intros H. split.
    + destruct (Rle_or_lt d0 0) as [L|L]; [exact L|exfalso].
      assert (Hm : 0 < Rmax d0 d1) by (pose proof (Rmax_l d0 d1); lra). rewrite (Rmin_right (Rmax d0 d1) 0) in H by lra.
      assert (0 < sqrt (Rmax d0 0 * Rmax d0 0 + Rmax d1 0 * Rmax d1 0)); [|lra]. apply sqrt_lt_R0.
      rewrite (Rmax_left d0 0) by lra. pose proof (Rmax_r d1 0). nra.
    + destruct (Rle_or_lt d1 0) as [L|L]; [exact L|exfalso].
      assert (Hm : 0 < Rmax d0 d1) by (pose proof (Rmax_r d0 d1); lra). rewrite (Rmin_right (Rmax d0 d1) 0) in H by lra.
      assert (0 < sqrt (Rmax d0 0 * Rmax d0 0 + Rmax d1 0 * Rmax d1 0)); [|lra]. apply sqrt_lt_R0.
      rewrite (Rmax_left d1 0) by lra. pose proof (Rmax_r d0 0). nra.
  - intros [L0 L1]. rewrite (Rmax_right d0 0), (Rmax_right d1 0) by lra. replace (0 * 0 + 0 * 0) with 0 by ring. rewrite sqrt_0.
    pose proof (Rmin_l (Rmax d0 d1) 0). pose proof (Rmin_r (Rmax d0 d1) 0). lra.
Qed.

Lemma cylinder_box h r x y z : 0 < h -> 0 < r -> d_eval (Cylinder h r no_manip) [x; y; z] <= 0 ->
  in_box (d_bbox (Cylinder h r no_manip)) [x; y; z].
Proof.
  intros Hh Hr H. apply cylinder_solid in H; [|assumption..]. destruct H as [H1 H2].
  unfold Cylinder, make_prim, configure, build_translation, build_rotation, build_stretch, no_manip. cbn [m_stretch m_rot m_trans fst snd Nat.eqb].
  rewrite (proj2 (Reqb_true 0 0)) by reflexivity. cbn [andb fst d_bbox].
  assert (Hm1 : h / 2 <= Rmax (h / 2) r) by apply Rmax_l. assert (Hm2 : r <= Rmax (h / 2) r) by apply Rmax_r.
  set (m := Rmax (h / 2) r) in *. pose proof (sq_nn x). pose proof (sq_nn z). assert (- r <= x <= r) by (apply sq_bound; lra). assert (- r <= z <= r) by (apply sq_bound; lra).
  repeat (constructor; [lra|]). constructor.
Qed.

(** prism: triangle with vertices (0,b), (w,-b/2), (-w,-b/2), w = 0.75 b / 0.866025 *)
Lemma prism_solid b h x y z : 0 < b ->
  (dprism b h [x; y; z] <= 0 <->
   Rabs z <= h /\ exists l1 l2 l3, 0 <= l1 /\ 0 <= l2 /\ 0 <= l3 /\ l1 + l2 + l3 = 1 /\
     x = l1 * 0 + l2 * (3 / 4 * b / (866025 / 1000000)) + l3 * - (3 / 4 * b / (866025 / 1000000)) /\
     y = l1 * b + l2 * (- b / 2) + l3 * (- b / 2)).
Proof.
  intros Hb. unfold dprism. rewrite Rmax_le.
  assert (A : Rmax (Rabs x * (866025 / 1000000) + y * (5 / 10)) (- y) - b * (5 / 10) <= 0 <->
     Rabs x * (866025 / 1000000) + y / 2 <= b / 2 /\ - y <= b / 2).
  { split.
    - intros H. assert (H' : Rmax (Rabs x * (866025 / 1000000) + y * (5 / 10)) (- y) <= b * (5 / 10)) by lra.
      apply Rmax_le in H'. lra.
    - intros H. assert (H' : Rmax (Rabs x * (866025 / 1000000) + y * (5 / 10)) (- y) <= b * (5 / 10)) by (apply Rmax_le; lra). lra. }
  rewrite A. set (k := 866025 / 1000000). assert (Hk : 0 < k) by (unfold k; lra).
  split.
  - intros [Hz [Hx Hy]]. split; [lra|].
    set (l1 := (2 * y + b) / (3 * b)). set (w := 3 / 4 * b / k).
    assert (Hw : 0 < w) by (unfold w; apply Rdiv_lt_0_compat; lra).
    set (dl := x / w).
    assert (E1 : l1 * (3 * b) = 2 * y + b) by (unfold l1; field; lra).
    assert (Ex : dl * w = x) by (unfold dl; field; lra).
    assert (Hd : Rabs dl <= 1 - l1).
    { assert (Hax : Rabs x = Rabs dl * w) by (rewrite <- Ex, Rabs_mult, (Rabs_right w); lra).
      rewrite Hax in Hx. assert (Hwk : w * k = 3 / 4 * b) by (unfold w; field; lra).
      assert (Hx' : Rabs dl * (3 / 4 * b) + y / 2 <= b / 2) by (rewrite <- Hwk; lra). nra. }
    apply Rabs_le_iff in Hd.
    exists l1, ((1 - l1 + dl) / 2), ((1 - l1 - dl) / 2).
    split; [|split; [lra|split; [lra|split; [lra|split]]]].
    + unfold l1, Rdiv. apply Rmult_le_pos; [lra|]. apply Rlt_le, Rinv_0_lt_compat. lra.
    + fold w. rewrite <- Ex. field.
    + nra.
  - intros [Hz (l1 & l2 & l3 & H1 & H2 & H3 & Hs & Ex & Ey)]. split; [lra|].
    set (w := 3 / 4 * b / k) in *. assert (Hw : 0 < w) by (unfold w; apply Rdiv_lt_0_compat; lra).
    assert (Hwk : w * k = 3 / 4 * b) by (unfold w; field; lra).
    assert (Hax : Rabs x <= (l2 + l3) * w) by (apply Rabs_le_iff; nra).
    assert (Rabs x * k <= (l2 + l3) * (3 / 4 * b)) by (rewrite <- Hwk; nra).
    split; nra.
Qed.

Lemma prism_box b h x y z : 0 < b -> dprism b h [x; y; z] <= 0 -> in_box (d_bbox (Prism b h no_manip)) [x; y; z].
Proof.
  intros Hb H. apply prism_solid in H; [|assumption]. destruct H as [Hz (l1 & l2 & l3 & H1 & H2 & H3 & Hs & Ex & Ey)].
  unfold Prism, make_prim, configure, build_translation, build_rotation, build_stretch, no_manip. cbn [m_stretch m_rot m_trans fst snd Nat.eqb].
  rewrite (proj2 (Reqb_true 0 0)) by reflexivity. cbn [andb fst d_bbox].
  apply Rabs_le_iff in Hz.
  set (w := 3 / 4 * b / (866025 / 1000000)) in *.
  assert (Hw : 0 < w <= b) by (unfold w; lra).
  repeat (constructor; [nra|]). constructor.
Qed.
