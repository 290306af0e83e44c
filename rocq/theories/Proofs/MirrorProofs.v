(** The size computation commutes with reversing the x or y axis. *)
From Coq Require Import List ZArith Reals Bool Lia Lra.
From Verif Require Import Model.Base Model.FastHJ Model.Sizing Model.UFilter Spec.Grid Spec.Velocity Spec.Mirror Proofs.ListAux Proofs.GridIndex Proofs.Limgrad Proofs.LimgradMain
  Proofs.SizingArr Proofs.SizingMain Proofs.SizingMore Proofs.UFilterProofs Props.P01_limiter Proofs.Compare.
Import ListNotations.
Local Open Scope R_scope.

Lemma flip_lt b n j : (j < n)%nat -> (flip b n j < n)%nat. Proof. unfold flip. destruct b; lia. Qed.
Lemma flip_flip b n j : (j < n)%nat -> flip b n (flip b n j) = j. Proof. unfold flip. destruct b; lia. Qed.
Lemma flip_dist b n j j' : (j < n)%nat -> (j' < n)%nat -> adist (flip b n j) (flip b n j') = adist j j'.
Proof. unfold flip, adist. destruct b; lia. Qed.

(** ---- lines ---- *)
Lemma reflect_rev n z : (0 < n)%nat -> reflect n (Z.of_nat n - 1 - z) = (n - 1 - reflect n z)%nat.
Proof.
  intros N. unfold reflect. set (M := (2 * Z.of_nat n)%Z). pose proof (Z.mod_pos_bound z M ltac:(unfold M; lia)) as B.
  pose proof (Z.div_mod z M ltac:(unfold M; lia)) as D. set (r := (z mod M)%Z) in *. set (q := (z / M)%Z) in *.
  destruct (Z_le_gt_dec r (Z.of_nat n - 1)) as [L | L].
  - assert ((Z.of_nat n - 1 - z) mod M = Z.of_nat n - 1 - r)%Z as ->.
    { symmetry. apply (Z.mod_unique _ _ (- q)); [left; unfold M; lia|]. rewrite D. ring. }
    destruct (Nat.ltb_spec (Z.to_nat (Z.of_nat n - 1 - r)) n), (Nat.ltb_spec (Z.to_nat r) n); lia.
  - assert ((Z.of_nat n - 1 - z) mod M = Z.of_nat n - 1 - r + M)%Z as ->.
    { symmetry. apply (Z.mod_unique _ _ (- q - 1)); [left; unfold M in *; lia|]. rewrite D. ring. }
    destruct (Nat.ltb_spec (Z.to_nat (Z.of_nat n - 1 - r + M)) n), (Nat.ltb_spec (Z.to_nat r) n); unfold M in *; lia.
Qed.
Lemma sum_app l l' : fold_right Rplus 0 (l ++ l') = fold_right Rplus 0 l + fold_right Rplus 0 l'.
Proof. induction l as [|x l IH]; cbn; [ring|]. rewrite IH. ring. Qed.
Lemma sum_rev l : fold_right Rplus 0 (rev l) = fold_right Rplus 0 l.
Proof. induction l as [|x l IH]; [reflexivity|]. cbn [rev]. rewrite sum_app, IH. cbn. ring. Qed.
Lemma rev_seq w : rev (seq 0 w) = map (fun j => (w - 1 - j)%nat) (seq 0 w).
Proof.
  induction w as [|w IH]; [reflexivity|]. rewrite seq_S at 1. rewrite rev_app_distr, IH. cbn [plus rev app seq map].
  f_equal; [lia|]. rewrite <- seq_shift, map_map. apply map_ext. intros j. lia.
Qed.
Lemma sum_rev_seq (f : nat -> R) w : fold_right Rplus 0 (map (fun j => f (w - 1 - j)%nat) (seq 0 w)) = fold_right Rplus 0 (map f (seq 0 w)).
Proof. rewrite <- (sum_rev (map f (seq 0 w))), <- map_rev, rev_seq, map_map. reflexivity. Qed.
Lemma mean_line_rev w n f i : (0 < n)%nat -> (i < n)%nat -> Nat.Odd w -> mean_line w n (fun x => f (n - 1 - x)%nat) i = mean_line w n f (n - 1 - i)%nat.
Proof.
  intros N I [h W]. unfold mean_line. f_equal. assert (HW : (w / 2)%nat = h). { subst w. rewrite Nat.mul_comm, Nat.div_add_l by lia. cbn. lia. }
  rewrite HW. rewrite <- (sum_rev_seq (fun j => f (reflect n (Z.of_nat (n - 1 - i) - Z.of_nat h + Z.of_nat j)))).
  f_equal. apply map_ext_in. intros j J. apply in_seq in J. f_equal. rewrite <- reflect_rev by exact N. f_equal. lia.
Qed.
Lemma pad1_rev st e b n f j : (0 < n)%nat -> (j < b + n + b)%nat -> pad1 st e b n b (fun x => f (n - 1 - x)%nat) j = pad1 st e b n b f (b + n + b - 1 - j)%nat.
Proof.
  intros N J. unfold pad1.
  destruct (Nat.ltb_spec j b) as [A | A].
  - destruct (Nat.ltb_spec (b + n + b - 1 - j) b); [lia|]. destruct (Nat.ltb_spec (b + n + b - 1 - j) (b + n)); [lia|].
    replace (n - 1 - 0)%nat with (n - 1)%nat by lia. replace (b + n + b - 1 - (b + n + b - 1 - j))%nat with j by lia. reflexivity.
  - destruct (Nat.ltb_spec j (b + n)) as [A' | A'].
    + destruct (Nat.ltb_spec (b + n + b - 1 - j) b); [lia|]. destruct (Nat.ltb_spec (b + n + b - 1 - j) (b + n)); [|lia]. f_equal. lia.
    + destruct (Nat.ltb_spec (b + n + b - 1 - j) b); [|lia]. replace (n - 1 - (n - 1))%nat with 0%nat by lia. reflexivity.
Qed.
Lemma pad1_ext st e b n c f g j : (0 < n)%nat -> (j < b + n + c)%nat -> (forall x, (x < n)%nat -> f x = g x) -> pad1 st e b n c f j = pad1 st e b n c g j.
Proof.
  intros N J E. unfold pad1. rewrite (E 0%nat N), (E (n - 1)%nat) by lia. destruct (Nat.ltb_spec j b); [reflexivity|]. destruct (Nat.ltb_spec j (b + n)); [apply E; lia | reflexivity].
Qed.

(** ---- arrays ---- *)
Section Mirror.
Variables bx by_ : bool.
Local Notation mir := (reversed bx by_).
Lemma mir_shape a a' : mir a a' -> shape_eq a' a.
Proof. intros [E _]. injection E as E0 E1 E2 E3. repeat split; assumption. Qed.
Lemma mir_sym a a' : mir a a' -> mir a' a.
Proof.
  intros [E H]. injection E as E0 E1 E2 E3. split; [congruence|]. intros i j k (I0 & I1 & I2). rewrite E1 in I0. rewrite E2 in I1. rewrite E3 in I2. rewrite E2, E3, H.
  - rewrite !flip_flip by assumption. reflexivity.
  - repeat split; [assumption | apply flip_lt; assumption..].
Qed.
Lemma mir_refl_at a a' i j k : mir a a' -> inr a i j k -> av a' i (flip bx (n1 a) j) (flip by_ (n2 a) k) = av a i j k.
Proof. intros [_ H] (I0 & I1 & I2). rewrite H by (repeat split; [assumption | apply flip_lt; assumption..]). rewrite !flip_flip by assumption. reflexivity. Qed.
Lemma inr_flip a i j k : inr a i j k -> inr a i (flip bx (n1 a) j) (flip by_ (n2 a) k).
Proof. intros (I0 & I1 & I2). repeat split; [assumption | apply flip_lt; assumption..]. Qed.
Lemma mir_amap f a a' : mir a a' -> mir (amap f a) (amap f a').
Proof. intros [E H]. split; [exact E|]. intros i j k I. cbn. rewrite H by exact I. reflexivity. Qed.
Lemma mir_amap2 f a a' b b' : mir a a' -> mir b b' -> shape_eq b a -> mir (amap2 f a b) (amap2 f a' b').
Proof.
  intros [E H] [E' H'] (S & S0 & S1 & S2). split; [exact E|]. intros i j k I. cbn. rewrite H by exact I. rewrite H', S1, S2; [reflexivity|].
  unfold has in *. cbn in I. rewrite S0, S1, S2. exact I.
Qed.
Lemma mir_in a a' x : mir a a' -> (In x (flattenF a') <-> In x (flattenF a)).
Proof.
  intro M. rewrite !in_flattenF. split.
  - intros (i & j & k & I & <-). assert (J : inr a i j k) by exact (shape_eq_inr _ _ _ _ _ (mir_shape _ _ M) I).
    exists i, (flip bx (n1 a) j), (flip by_ (n2 a) k). split; [apply inr_flip, J|]. destruct M as [_ H]. symmetry. apply H, J.
  - intros (i & j & k & I & <-). exists i, (flip bx (n1 a) j), (flip by_ (n2 a) k). split; [|apply mir_refl_at; assumption].
    eapply shape_eq_inr; [apply shape_eq_sym, mir_shape; exact M | apply inr_flip, I].
Qed.
Lemma mir_pos a a' : mir a a' -> positive_shape a -> positive_shape a'.
Proof. intros M. apply shape_pos, shape_eq_sym, mir_shape, M. Qed.
Lemma mir_amax a a' : positive_shape a -> mir a a' -> amax a' = amax a.
Proof.
  intros P M. apply Rle_antisym; apply max_list_ge; [apply (mir_in _ _ _ M) | apply (mir_in _ _ _ M)]; apply max_list_in, flattenF_nonempty; [eapply mir_pos; eassumption | exact P].
Qed.
Lemma mir_amin a a' : positive_shape a -> mir a a' -> amin a' = amin a.
Proof.
  intros P M. apply Rle_antisym; apply min_list_le; [apply (mir_in _ _ _ M) | apply (mir_in _ _ _ M)]; apply min_list_in, flattenF_nonempty; [exact P | eapply mir_pos; eassumption].
Qed.
Lemma mir_existsb f a a' : mir a a' -> existsb f (flattenF a') = existsb f (flattenF a).
Proof.
  intro M. apply eq_true_iff_eq. rewrite !existsb_exists. split; intros (x & I & E); exists x; (split; [apply (mir_in _ _ _ M), I | exact E]).
Qed.
Lemma mir_water a a' : mir a a' -> water_trigger a' = water_trigger a.
Proof.
  intro M. apply eq_true_iff_eq. rewrite !water_trigger_spec. split; intros (i & j & k & I & Z & L).
  - assert (J : inr a i j k) by exact (shape_eq_inr _ _ _ _ _ (mir_shape _ _ M) I). exists i, (flip bx (n1 a) j), (flip by_ (n2 a) k).
    split; [apply inr_flip, J|]. split; [exact Z|]. destruct M as [_ H]. rewrite <- H by exact J. exact L.
  - exists i, (flip bx (n1 a) j), (flip by_ (n2 a) k). split; [eapply shape_eq_inr; [apply shape_eq_sym, mir_shape; exact M | apply inr_flip, I]|]. split; [exact Z|].
    rewrite mir_refl_at by assumption. exact L.
Qed.
Definition mir_res (r r' : sizing_result garr) : Prop :=
  match r, r' with SzOk a, SzOk a' => mir a a' | SzErr e, SzErr e' => e' = e | SzNonFinite, SzNonFinite => True | _, _ => False end.
Lemma mir_prepare o vp vp' : mir vp vp' -> mir_res (prepare_vp o vp) (prepare_vp o vp').
Proof.
  intro M. unfold prepare_vp, replace_water. assert (C : mir (convert_units (o_units o) vp) (convert_units (o_units o) vp')) by (destruct (o_units o); cbn; try apply mir_amap; exact M).
  rewrite (mir_water _ _ C). destruct (water_trigger _); [|exact C]. destruct (o_vp_water o) as [x|]; [|reflexivity]. destruct (_ || _); [reflexivity|]. apply mir_amap, C.
Qed.
Lemma mir_wavelength vp vp' wl freq : mir vp vp' -> mir_res (wavelength_sizing vp wl freq) (wavelength_sizing vp' wl freq).
Proof.
  intro M. unfold wavelength_sizing. destruct (Reqb wl 0); [apply mir_amap, M|]. destruct (Rltb wl 0); [reflexivity|]. destruct (Rltb freq 0); [reflexivity|].
  destruct (Reqb (freq * wl) 0); [exact Logic.I|]. apply mir_amap, M.
Qed.
(** moving averages *)
Lemma mir_mean0 w a a' : positive_shape a -> mir a a' -> mir (mean0 w a) (mean0 w a').
Proof.
  intros (P & _) [E H]. split; [exact E|]. intros i j k I. cbn [av mean0 n1 n2]. injection E as E0 E1 E2 E3. rewrite E1.
  unfold mean_line. f_equal. f_equal. apply map_ext. intro x. apply H. destruct I as (_ & I1 & I2). repeat split; [apply reflect_lt, P | exact I1 | exact I2].
Qed.
Lemma mir_mean1 w a a' : positive_shape a -> mir a a' -> (bx = true -> Nat.Odd w) -> mir (mean1 w a) (mean1 w a').
Proof.
  intros (_ & P & _) [E H] O. split; [exact E|]. intros i j k I. cbn [av mean1 n1 n2]. injection E as E0 E1 E2 E3. rewrite E2. destruct I as (I0 & I1 & I2). cbn [mean1 n0 n1 n2] in I0, I1, I2.
  transitivity (mean_line w (n1 a) (fun x => av a i (flip bx (n1 a) x) (flip by_ (n2 a) k)) j).
  - unfold mean_line. f_equal. f_equal. apply map_ext. intro x. apply H. repeat split; [exact I0 | apply reflect_lt, P | exact I2].
  - unfold flip at 1 3. destruct bx; [|reflexivity]. apply (mean_line_rev w (n1 a) (fun x => av a i x (flip by_ (n2 a) k))); auto.
Qed.
Lemma mir_mean2 w a a' : positive_shape a -> mir a a' -> (by_ = true -> Nat.Odd w) -> mir (mean2 w a) (mean2 w a').
Proof.
  intros (_ & _ & P) [E H] O. split; [exact E|]. intros i j k I. cbn [av mean2 n1 n2]. injection E as E0 E1 E2 E3. rewrite E3. destruct I as (I0 & I1 & I2). cbn [mean2 n0 n1 n2] in I0, I1, I2.
  transitivity (mean_line w (n2 a) (fun x => av a i (flip bx (n1 a) j) (flip by_ (n2 a) x)) k).
  - unfold mean_line. f_equal. f_equal. apply map_ext. intro x. apply H. repeat split; [exact I0 | exact I1 | apply reflect_lt, P].
  - unfold flip at 2 4. destruct by_; [|reflexivity]. apply (mean_line_rev w (n2 a) (fun x => av a i (flip bx (n1 a) j) x)); auto.
Qed.
Variable win : list R.
Hypothesis CX : bx = true -> centred (nth 1 win 0).
Hypothesis CY : by_ = true -> centred (nth 2 win 0).
Lemma mir_filter a a' : positive_shape a -> mir a a' -> mir (uniform_filter win a) (uniform_filter win a').
Proof.
  intros P M. unfold uniform_filter, along.
  assert (M0 : mir (if Rltb 1 (nth 0 win 0) then mean0 (int_of (nth 0 win 0)) a else a) (if Rltb 1 (nth 0 win 0) then mean0 (int_of (nth 0 win 0)) a' else a')).
  { destruct (Rltb 1 _); [apply mir_mean0; assumption | exact M]. }
  assert (P0 : positive_shape (if Rltb 1 (nth 0 win 0) then mean0 (int_of (nth 0 win 0)) a else a)) by (destruct (Rltb 1 _); exact P).
  revert M0 P0. generalize (if Rltb 1 (nth 0 win 0) then mean0 (int_of (nth 0 win 0)) a else a), (if Rltb 1 (nth 0 win 0) then mean0 (int_of (nth 0 win 0)) a' else a').
  clear a a' P M. intros a a' M P.
  assert (M1 : mir (if Rltb 1 (nth 1 win 0) then mean1 (int_of (nth 1 win 0)) a else a) (if Rltb 1 (nth 1 win 0) then mean1 (int_of (nth 1 win 0)) a' else a')).
  { destruct (Rltb 1 _) eqn:E; [|exact M]. apply Rltb_true in E. apply mir_mean1; [assumption.. |]. intro B. destruct (CX B); [lra | assumption]. }
  assert (P1 : positive_shape (if Rltb 1 (nth 1 win 0) then mean1 (int_of (nth 1 win 0)) a else a)) by (destruct (Rltb 1 _); exact P).
  revert M1 P1. generalize (if Rltb 1 (nth 1 win 0) then mean1 (int_of (nth 1 win 0)) a else a), (if Rltb 1 (nth 1 win 0) then mean1 (int_of (nth 1 win 0)) a' else a').
  clear a a' P M. intros a a' M P.
  destruct (Rltb 1 _) eqn:E; [|exact M]. apply Rltb_true in E. apply mir_mean2; [assumption.. |]. intro B. destruct (CY B); [lra | assumption].
Qed.
Lemma mir_gradient vp vp' grad : positive_shape vp -> mir vp vp' -> mir_res (gradient_sizing (uniform_filter win) vp grad) (gradient_sizing (uniform_filter win) vp' grad).
Proof.
  intros P M. unfold gradient_sizing. destruct (Reqb grad 0); [apply mir_amap, M|]. destruct (Rltb grad 0); [reflexivity|].
  assert (W : mir (window_variance (uniform_filter win) vp) (window_variance (uniform_filter win) vp')).
  { unfold window_variance. apply mir_amap2; [apply mir_filter; [exact P | apply mir_amap, M] | apply mir_filter; assumption|].
    destruct (uniform_ml win) as [A _]. eapply shape_eq_trans; [apply A|]. apply shape_eq_sym. exact (A (amap (fun v => v * v) vp)). }
  assert (PW : positive_shape (window_variance (uniform_filter win) vp)) by (eapply shape_pos; [apply shape_eq_sym, variance_shape | exact P]).
  revert W PW. generalize (window_variance (uniform_filter win) vp), (window_variance (uniform_filter win) vp'). clear P M. intros w w' W PW.
  unfold gradient_of_variance. rewrite (mir_amax _ _ PW W). destruct (Reqb (amax w) 0); [exact Logic.I|]. cbn [mir_res].
  rewrite (mir_amin (amap (fun v => v / amax w) w) (amap (fun v => v / amax w) w')); [|exact PW | apply mir_amap, W].
  apply mir_amap, mir_amap, mir_amap, W.
Qed.
End Mirror.

Section Whole.
Variables (bx by_ : bool) (win : list R).
Local Notation mir := (reversed bx by_).
Definition odd_windows : Prop := (bx = true -> centred (nth 1 win 0)) /\ (by_ = true -> centred (nth 2 win 0)).
Lemma mir_initial o vp vp' : o_grad o = 0 \/ odd_windows -> positive_shape vp -> mir vp vp' ->
  mir_res bx by_ (initial_size (uniform_filter win) o vp) (initial_size (uniform_filter win) o vp').
Proof.
  intros G P M. unfold initial_size. destruct (_ || _); [|apply mir_amap, M]. pose proof (mir_wavelength bx by_ vp vp' (o_wl o) (o_freq o) M) as W.
  assert (GR : mir_res bx by_ (gradient_sizing (uniform_filter win) vp (o_grad o)) (gradient_sizing (uniform_filter win) vp' (o_grad o))).
  { destruct G as [-> | [CX CY]]; [|apply mir_gradient; assumption]. unfold gradient_sizing. rewrite (proj2 (Reqb_true 0 0) eq_refl). apply mir_amap, M. }
  destruct (wavelength_sizing vp (o_wl o) (o_freq o)) as [a | e |] eqn:EA, (wavelength_sizing vp' _ _) as [a' | e' |]; try contradiction; [|exact W | exact Logic.I]. cbn [sbind]. cbn [mir_res] in W.
  pose proof (wavelength_shape _ _ _ _ EA) as SA.
  assert (SG : forall g, gradient_sizing (uniform_filter win) vp (o_grad o) = SzOk g -> shape_eq g vp).
  { intros g E. unfold gradient_sizing in E. destruct (Reqb _ _); [injection E as <-; repeat split|]. destruct (Rltb _ _); [discriminate|].
    unfold gradient_of_variance in E. destruct (Reqb _ _); [discriminate|]. injection E as <-. eapply shape_eq_trans; [|apply (variance_shape win vp)]. repeat split. }
  destruct (gradient_sizing _ vp _) as [g | e |], (gradient_sizing _ vp' _) as [g' | e' |]; try contradiction; [|exact GR | exact Logic.I]. cbn [sbind mir_res]. cbn [mir_res] in GR.
  apply mir_amap2; [exact W | exact GR|]. eapply shape_eq_trans; [apply SG; reflexivity | apply shape_eq_sym; exact SA].
Qed.
Lemma mir_clamp lo hi a a' : mir a a' -> mir (clamp lo hi a) (clamp lo hi a'). Proof. intro M. apply mir_amap, mir_amap, M. Qed.
Lemma mir_courant vp vp' a a' cr dt so : mir vp vp' -> mir a a' -> shape_eq a vp -> mir_res bx by_ (courant vp a cr dt so) (courant vp' a' cr dt so).
Proof.
  intros M MA S. unfold courant. destruct (_ || _); [exact MA|]. destruct (Rltb cr 0); [reflexivity|]. destruct (Rltb dt 0); [reflexivity|]. destruct (Rltb so 1); [reflexivity|].
  rewrite (mir_existsb bx by_ _ a a' MA). destruct (existsb _ _); [exact Logic.I|]. cbn [mir_res]. destruct (mir_shape _ _ _ _ M) as (-> & _). apply mir_amap2; assumption.
Qed.
Lemma pad1_flip st e b n f j c : (0 < n)%nat -> (j < b + n + b)%nat -> pad1 st e b n b (fun x => f (flip c n x)) j = pad1 st e b n b f (flip c (b + n + b) j).
Proof. intros N J. unfold flip. destruct c; [apply pad1_rev; assumption | reflexivity]. Qed.
Lemma mir_pad st p0 p1 p2 e a a' : positive_shape a -> mir a a' -> mir_res bx by_ (pad_it st p0 p1 p2 e a) (pad_it st p0 p1 p2 e a').
Proof.
  intros (P0 & P1 & P2) [E H]. injection E as E0 E1 E2 E3. unfold pad_it. rewrite E0, E1, E2, E3.
  assert (G : forall i j k, (i < p0 + n0 a)%nat -> (j < p1 + n1 a + p1)%nat -> (k < p2 + n2 a + p2)%nat ->
    pad1 st e p2 (n2 a) p2 (fun k' => pad1 st e p1 (n1 a) p1 (fun j' => pad1 st e p0 (n0 a) 0 (fun i' => av a' i' j' k') i) j) k =
    pad1 st e p2 (n2 a) p2 (fun k' => pad1 st e p1 (n1 a) p1 (fun j' => pad1 st e p0 (n0 a) 0 (fun i' => av a i' j' k') i) (flip bx (p1 + n1 a + p1) j)) (flip by_ (p2 + n2 a + p2) k)).
  { intros i j k I J K.
    rewrite <- (pad1_flip st e p2 (n2 a) _ k by_ P2 K). apply pad1_ext; [exact P2 | exact K |]. intros z Z.
    rewrite <- (pad1_flip st e p1 (n1 a) _ j bx P1 J). apply pad1_ext; [exact P1 | exact J |]. intros y Y.
    apply pad1_ext; [exact P0 | lia |]. intros x X. apply H. repeat split; assumption. }
  destruct st; [| | |reflexivity]; (split; [reflexivity|]; intros i j k (I & J & K); cbn [n0 n1 n2] in I, J, K; cbn [av n1 n2]; apply G; assumption).
Qed.
Definition mir_out := reversed_outcome bx by_.
Lemma mir_domain_pad a a' vp vp' b st pad : positive_shape a -> positive_shape vp -> mir a a' -> mir vp vp' -> mir_out (domain_pad a vp b st pad) (domain_pad a' vp' b st pad).
Proof.
  intros P PV MA M. unfold domain_pad. destruct (Rltb pad 0); [reflexivity|]. destruct (Rgtb pad 0); [|repeat split; try apply MA; apply M].
  assert (EP : pad_counts vp' b pad = pad_counts vp b pad). { destruct (mir_shape _ _ _ _ M) as (A & A0 & A1 & A2). unfold pad_counts, dz_of, dx_of, dy_of. rewrite A, A0, A1, A2. reflexivity. }
  rewrite EP. destruct (pad_counts vp b pad) as [[p0 p1] p2]. rewrite (mir_amax bx by_ _ _ P MA), (mir_amax bx by_ _ _ PV M).
  pose proof (mir_pad st p0 p1 p2 (amax a) a a' P MA) as X. pose proof (mir_pad st p0 p1 p2 (amax vp) vp vp' PV M) as Y. destruct (mir_shape _ _ _ _ M) as (-> & _).
  destruct (pad_it st p0 p1 p2 (amax a) a), (pad_it st p0 p1 p2 (amax a) a'); try contradiction; [|exact X | exact Logic.I]. cbn [sbind].
  destruct (pad_it st p0 p1 p2 (amax vp) vp), (pad_it st p0 p1 p2 (amax vp) vp'); try contradiction; [|exact Y | exact Logic.I]. cbn [sbind]. cbn [mir_res] in X, Y.
  cbn [mir_out]. split; [exact X|]. split; [exact Y | reflexivity].
Qed.
Lemma mir_sizing o b vp vp' : o_grade o = 0 -> o_grad o = 0 \/ odd_windows -> positive_shape vp -> mir vp vp' ->
  mir_out (get_sizing (uniform_filter win) o b vp) (get_sizing (uniform_filter win) o b vp').
Proof.
  intros GZ G P M. unfold get_sizing. pose proof (mir_prepare bx by_ o vp vp' M) as V.
  destruct (prepare_vp o vp) as [v | e |] eqn:EV, (prepare_vp o vp') as [v' | e' |]; try contradiction; [|exact V | exact Logic.I]. cbn [sbind]. cbn [mir_res] in V.
  pose proof (prepare_shape _ _ _ EV) as SV. assert (PV : positive_shape v) by (eapply shape_pos; [apply shape_eq_sym; exact SV | exact P]).
  destruct (bbox_dim b) as [dd | ee]; [|reflexivity]. pose proof (mir_initial o v v' G PV V) as I.
  destruct (initial_size _ o v) as [a | e |] eqn:EI, (initial_size _ o v') as [a' | e' |]; try contradiction; [|exact I | exact Logic.I]. cbn [sbind]. cbn [mir_res] in I.
  assert (SA : shape_eq (clamp (o_hmin o) (o_hmax o) a) v) by (eapply shape_eq_trans; [apply clamp_shape | eapply initial_shape; exact EI]).
  pose proof (mir_courant v v' _ _ (o_cr_max o) (o_dt o) (o_space_order o) V (mir_clamp (o_hmin o) (o_hmax o) _ _ I) SA) as C.
  destruct (courant v _ _ _ _) as [c | e |] eqn:EC, (courant v' _ _ _ _) as [c' | e' |]; try contradiction; [|exact C | exact Logic.I]. cbn [sbind]. cbn [mir_res] in C.
  rewrite GZ, !gradation_off. cbn [sbind]. apply mir_domain_pad; [|exact PV | exact C | exact V].
  eapply shape_pos; [|exact PV]. apply shape_eq_sym. eapply shape_eq_trans; [eapply courant_shape; eassumption | exact SA].
Qed.
(** with grading, no padding *)
Lemma mir_grading c c' grade elen tol e e' : int_grid c -> 0 <= elen -> 0 <= tol -> 0 < grade -> (forall i j k, inr c i j k -> 0 <= av c i j k) -> mir c c' ->
  gradation c grade elen = SzOk e -> gradation c' grade elen = SzOk e' -> graded (n0 e') (n1 e') (n2 e') (elen * grade + tol) (flattenF e') ->
  forall i j k, inr c i j k -> av e' i j k <= av e i (flip bx (n1 c) j) (flip by_ (n2 c) k) + INR (n0 c + n1 c + n2 c - 3) * tol.
Proof.
  intros IG E TL G P M H H' GR i j k I. pose proof (mir_shape _ _ _ _ M) as SC. pose proof (gradation_shape _ _ _ _ H') as SE.
  assert (IG' : int_grid c') by (eapply shape_int_grid; [apply shape_eq_sym; exact SC | exact IG]).
  assert (P' : forall x y z, inr c' x y z -> 0 <= av c' x y z).
  { intros x y z J. assert (K : inr c x y z) by exact (shape_eq_inr _ _ _ _ _ SC J). destruct M as [_ M]. rewrite M by exact K. apply P, inr_flip, K. }
  pose proof (gradation_bounds c' grade elen e' 0 IG' E (Rle_refl 0) P' H') as BD.
  destruct (gradation_inv c grade elen e IG E P H) as [[Z _] | (_ & out & EL & ->)]; [lra|].
  assert (LI : limiter_input (fun _ => True) (n0 c) (n1 c) (n2 c) elen grade (flattenF c)).
  { split; [apply int_grid_valid, IG|]. split; [apply flattenF_length|]. split; [apply Forall_forall; auto|]. split; [apply flattenF_forall, P | lra]. }
  pose proof (inr_flip bx by_ _ _ _ _ I) as IF.
  destruct (C03_no_over_refinement _ _ _ _ _ _ _ _ LI EL (i, flip bx (n1 c) j, flip by_ (n2 c) k) IF) as ([[x y] z] & Hp & L).
  assert (J : inr c x y z) by exact Hp. pose proof (inr_flip bx by_ _ _ _ _ J) as JF.
  assert (JF' : inr c' x (flip bx (n1 c) y) (flip by_ (n2 c) z)) by (eapply shape_eq_inr; [apply shape_eq_sym; exact SC | exact JF]).
  assert (GD : gdist (x, flip bx (n1 c) y, flip by_ (n2 c) z) (i, j, k) = gdist (x, y, z) (i, flip bx (n1 c) j, flip by_ (n2 c) k)).
  { unfold gdist. destruct I as (I0 & I1 & I2), J as (J0 & J1 & J2). f_equal; [f_equal|].
    - rewrite <- (flip_flip bx (n1 c) j) at 1 by assumption. apply flip_dist; [assumption | apply flip_lt; assumption].
    - rewrite <- (flip_flip by_ (n2 c) k) at 1 by assumption. apply flip_dist; [assumption | apply flip_lt; assumption]. }
  pose proof (gdist_max (n0 c) (n1 c) (n2 c) (x, y, z) (i, flip bx (n1 c) j, flip by_ (n2 c) k) Hp IF) as GM.
  assert (IE : inr e' i j k) by (eapply shape_eq_inr; [apply shape_eq_sym; eapply shape_eq_trans; [exact SE | exact SC] | exact I]).
  assert (JE : inr e' x (flip bx (n1 c) y) (flip by_ (n2 c) z)) by (eapply shape_eq_inr; [apply shape_eq_sym; exact SE | exact JF']).
  assert (VD : valid_dims (n0 e') (n1 e') (n2 e')). { destruct SE as (_ & -> & -> & ->). apply int_grid_valid, IG'. }
  pose proof (graded_path _ _ _ _ (elen * grade + tol) VD ltac:(nra) GR (x, flip bx (n1 c) y, flip by_ (n2 c) z) (i, j, k) JE IE) as GP. rewrite !flat_val in GP by assumption. rewrite GD in GP.
  rewrite flat_val in L by assumption. destruct (BD _ _ _ JF') as [_ B]. rewrite (mir_refl_at bx by_ c c' x y z M J) in B. cbn [av reshapeF]. unfold val, pos in L.
  set (m := gdist (x, y, z) (i, flip bx (n1 c) j, flip by_ (n2 c) k)) in *. apply le_INR in GM. pose proof (pos_INR m).
  assert (INR m * tol <= INR (n0 c + n1 c + n2 c - 3) * tol) by (apply Rmult_le_compat_r; assumption). lra.
Qed.
End Whole.
