(** C104: units of velocity and of length in get_sizing_function_from_segy (sizes at the samples of the grid; exact arithmetic). *)
From Coq Require Import Reals List Arith Bool Lra Lia ZArith FunctionalExtensionality.
From Verif Require Import Model.Base Model.FastHJ Model.Sizing Model.UFilter.
From Verif Require Import Proofs.ListAux Proofs.MeshAux.
Import ListNotations.
Local Open Scope R_scope.

(** ---- specification ---- *)
Definition times (c : R) (a : garr) : garr := amap (fun v => c * v) a.
Definition with_units (u : units) (o : opts) : opts :=
  mkOpts (o_vp_water o) (o_hmin o) (o_hmax o) (o_wl o) (o_freq o) (o_grad o) (o_grade o) (o_space_order o) (o_dt o) (o_cr_max o) (o_pad_style o) (o_domain_pad o) u.
(** all lengths among the options c times larger *)
Definition lengths_times (c : R) (o : opts) : opts :=
  mkOpts (o_vp_water o) (c * o_hmin o) (c * o_hmax o) (o_wl o) (o_freq o) (c * o_grad o) (o_grade o) (o_space_order o) (o_dt o) (o_cr_max o) (o_pad_style o) (c * o_domain_pad o) (o_units o).
(** the unit of time c times larger: frequency c times, time step 1/c times the number *)
Definition times_times (c : R) (o : opts) : opts :=
  mkOpts (o_vp_water o) (o_hmin o) (o_hmax o) (o_wl o) (c * o_freq o) (o_grad o) (o_grade o) (o_space_order o) (o_dt o / c) (o_cr_max o) (o_pad_style o) (o_domain_pad o) (o_units o).
(** no velocity (in m/s) counts as water *)
Definition dry (u : units) (vp : garr) : Prop :=
  forall i j k, (i < n0 vp)%nat -> (j < n1 vp)%nat -> (k < n2 vp)%nat -> 1 / 1000 <= av (convert_units u vp) i j k.

(** ---- the limiter ---- *)
Lemma Rgtb_scal c x y : 0 < c -> Rgtb (c * x) (c * y) = Rgtb x y.
Proof.
  intros C. unfold Rgtb. destruct (Rltb y x) eqn:E.
  - apply Rltb_true in E. apply Rltb_true. apply Rmult_lt_compat_l; assumption.
  - apply Rltb_false in E. apply Rltb_false. apply Rmult_le_compat_l; lra.
Qed.
Lemma Rltb_scal c x y : 0 < c -> Rltb (c * x) (c * y) = Rltb x y.
Proof. intros C. apply (Rgtb_scal c y x C). Qed.
Lemma Rltb_scal0 c x : 0 < c -> Rltb (c * x) 0 = Rltb x 0.
Proof. intros C. rewrite <- (Rltb_scal c x 0 C). f_equal. ring. Qed.
Lemma Rgtb_scal0 c x : 0 < c -> Rgtb (c * x) 0 = Rgtb x 0.
Proof. intros C. rewrite <- (Rgtb_scal c x 0 C). f_equal. ring. Qed.
Lemma Reqb_scal0 c x : 0 < c -> Reqb (c * x) 0 = Reqb x 0.
Proof.
  intros C. destruct (Reqb x 0) eqn:E.
  - apply Reqb_true in E. apply Reqb_true. subst. ring.
  - apply Reqb_false in E. apply Reqb_false. intros Q. apply E. apply Rmult_eq_reg_l with c; lra.
Qed.
Lemma div_scal c p q : 0 < c -> c * p / (c * q) = p / q.
Proof. intros C. destruct (Req_dec q 0) as [-> |N]; [rewrite Rmult_0_r; unfold Rdiv; rewrite Rinv_0; ring|field; lra]. Qed.
Lemma min_scal c l : 0 < c -> min_list (map (Rmult c) l) = c * min_list l.
Proof.
  intros C. induction l as [|x l IH]; [cbn; ring|]. destruct l as [|y l]; [reflexivity|].
  change (min_list (map (Rmult c) (x :: y :: l))) with (Rmin (c * x) (min_list (map (Rmult c) (y :: l)))).
  rewrite IH. change (min_list (x :: y :: l)) with (Rmin x (min_list (y :: l))).
  unfold Rmin. destruct (Rle_dec (c * x) _) as [H|H]; destruct (Rle_dec x _) as [K|K]; try reflexivity; exfalso.
  - apply K. apply Rmult_le_reg_l with c; assumption.
  - apply H. apply Rmult_le_compat_l; lra.
Qed.
Lemma max_scal c l : 0 < c -> max_list (map (Rmult c) l) = c * max_list l.
Proof.
  intros C. induction l as [|x l IH]; [cbn; ring|]. destruct l as [|y l]; [reflexivity|].
  change (max_list (map (Rmult c) (x :: y :: l))) with (Rmax (c * x) (max_list (map (Rmult c) (y :: l)))).
  rewrite IH. change (max_list (x :: y :: l)) with (Rmax x (max_list (y :: l))).
  unfold Rmax. destruct (Rle_dec (c * x) _) as [H|H]; destruct (Rle_dec x _) as [K|K]; try reflexivity; exfalso.
  - apply K. apply Rmult_le_reg_l with c; assumption.
  - apply H. apply Rmult_le_compat_l; lra.
Qed.
Definition scs (c : R) (s : lstate) : lstate := mkL (map (Rmult c) (fld s)) (act s).
Lemma aget_map c l i : aget (map (Rmult c) l) i = option_map (Rmult c) (aget l i).
Proof. unfold aget. destruct (i <? 0)%Z; [reflexivity|]. apply nth_error_map. Qed.
Lemma upd_map c l : forall i x, upd (map (Rmult c) l) i (c * x) = map (Rmult c) (upd l i x).
Proof. induction l as [|y l IH]; intros [|i] x; cbn; [reflexivity..|]. rewrite IH. reflexivity. Qed.
Lemma aset_map c l i x : aset_at (map (Rmult c) l) i (c * x) = option_map (map (Rmult c)) (aset_at l i x).
Proof. unfold aset_at. rewrite map_length. destruct (i <? 0)%Z; [reflexivity|]. destruct (_ <? _)%nat; [|reflexivity]. rewrite upd_map. reflexivity. Qed.
Section Limiter.
Variable c : R.
Hypothesis C : 0 < c.
Lemma relax_scal g ft it s a b : relax (fun x => x) (c * g) (c * ft) it (scs c s) a b = option_map (scs c) (relax (fun x => x) g ft it s a b).
Proof.
  unfold relax. cbn [scs fld act]. rewrite !aget_map. destruct (aget (fld s) a) as [f1|]; [|reflexivity]. cbn [option_map obind].
  destruct (aget (fld s) b) as [f2|]; [|reflexivity]. cbn [option_map obind]. rewrite (Rgtb_scal c f1 f2 C). destruct (Rgtb f1 f2).
  - replace (c * f2 + c * g) with (c * (f2 + g)) by ring. replace (c * (f2 + g) + c * ft) with (c * (f2 + g + ft)) by ring. rewrite (Rgtb_scal c _ _ C).
    destruct (Rgtb f1 _); [|reflexivity]. rewrite aset_map. destruct (aset_at (fld s) a _); [|reflexivity]. cbn [option_map obind]. destruct (aset_at (act s) a it); reflexivity.
  - replace (c * f1 + c * g) with (c * (f1 + g)) by ring. replace (c * (f1 + g) + c * ft) with (c * (f1 + g + ft)) by ring. rewrite (Rgtb_scal c _ _ C).
    destruct (Rgtb f2 _); [|reflexivity]. rewrite aset_map. destruct (aset_at (fld s) b _); [|reflexivity]. cbn [option_map obind]. destruct (aset_at (act s) b it); reflexivity.
Qed.
Lemma relax_all_scal g ft it a ns : forall s, relax_all (fun x => x) (c * g) (c * ft) it (scs c s) a ns = option_map (scs c) (relax_all (fun x => x) g ft it s a ns).
Proof. induction ns as [|b ns IH]; intros s; [reflexivity|]. cbn [relax_all]. rewrite relax_scal. destruct (relax _ g ft it s a b); [|reflexivity]. cbn [option_map obind]. apply IH. Qed.
Lemma sweep_scal d0 d1 d2 g ft it ix : forall s, sweep (fun x => x) d0 d1 d2 (c * g) (c * ft) it (scs c s) ix = option_map (scs c) (sweep (fun x => x) d0 d1 d2 g ft it s ix).
Proof. induction ix as [|a ix IH]; intros s; [reflexivity|]. cbn [sweep]. rewrite relax_all_scal. destruct (relax_all _ g ft it s _ _); [|reflexivity]. cbn [option_map obind]. apply IH. Qed.
Lemma hj_scal fuel d0 d1 d2 g ft : forall it s, hj_loop (fun x => x) fuel d0 d1 d2 (c * g) (c * ft) it (scs c s) =
  option_map (fun r => (scs c (fst r), snd r)) (hj_loop (fun x => x) fuel d0 d1 d2 g ft it s).
Proof.
  induction fuel as [|fuel IH]; intros it s; [reflexivity|]. cbn [hj_loop]. change (act (scs c s)) with (act s).
  destruct (findIndices (act s) (it - 1)) as [|x l]; [reflexivity|]. rewrite sweep_scal. destruct (sweep _ d0 d1 d2 g ft it s _); [|reflexivity]. cbn [option_map obind]. apply IH.
Qed.
Lemma limgrad_scal d0 d1 d2 elen dfdx imax f :
  limgrad (fun x => x) d0 d1 d2 (c * elen) dfdx imax (map (Rmult c) f) = option_map (map (Rmult c)) (limgrad (fun x => x) d0 d1 d2 elen dfdx imax f).
Proof.
  unfold limgrad, c_limgrad_full, ftol_of. rewrite min_scal by exact C. replace (c * elen * dfdx) with (c * (elen * dfdx)) by ring.
  replace (c * min_list f * sqrt (1 / 10 ^ 9)) with (c * (min_list f * sqrt (1 / 10 ^ 9))) by ring.
  match goal with |- obind (obind (hj_loop _ _ _ _ _ _ _ _ (mkL _ ?a)) _) _ = _ => change (mkL (map (Rmult c) f) a) with (scs c (mkL f a)) end.
  rewrite hj_scal. destruct (hj_loop _ imax d0 d1 d2 _ _ 0 _) as [[s b]|]; reflexivity.
Qed.

(** ---- arrays ---- *)
Lemma amap_amap f g a : amap f (amap g a) = amap (fun v => f (g v)) a. Proof. reflexivity. Qed.
Lemma amap_ext f g a : (forall v, f v = g v) -> amap f a = amap g a.
Proof. intros E. unfold amap. f_equal. extensionality i; extensionality j; extensionality k. apply E. Qed.
Lemma flatten_amap f a : flattenF (amap f a) = map f (flattenF a).
Proof. unfold flattenF. cbn [amap n0 n1 n2 av]. rewrite map_map. apply map_ext. intros [[i j] k]. reflexivity. Qed.
Lemma flatten_times a : flattenF (times c a) = map (Rmult c) (flattenF a).
Proof. apply flatten_amap. Qed.
Lemma amax_times a : amax (times c a) = c * amax a. Proof. unfold amax. rewrite flatten_times. apply max_scal, C. Qed.
Lemma amin_times a : amin (times c a) = c * amin a. Proof. unfold amin. rewrite flatten_times. apply min_scal, C. Qed.
Definition smap {A B} (f : A -> B) (r : sizing_result A) : sizing_result B := sbind r (fun a => SzOk (f a)).

Lemma gradation_times a grade elen : gradation (times c a) grade (c * elen) = smap (times c) (gradation a grade elen).
Proof.
  unfold gradation. destruct (Reqb grade 0); [reflexivity|]. destruct (Rltb grade 0); [reflexivity|]. rewrite flatten_times, limgrad_scal. cbn [times amap n0 n1 n2 adim].
  destruct (limgrad _ _ _ _ elen grade _ _) as [l|]; [|reflexivity]. cbn [option_map smap sbind]. f_equal. unfold reshapeF, times, amap. cbn [adim n0 n1 n2 av]. f_equal.
  extensionality i; extensionality j; extensionality k. rewrite <- (Rmult_0_r c) at 1. apply map_nth.
Qed.
Lemma clamp_times lo hi a : clamp (c * lo) (c * hi) (times c a) = times c (clamp lo hi a).
Proof.
  unfold clamp, times. rewrite !amap_amap. apply amap_ext. intros v. rewrite (Rltb_scal c _ _ C). destruct (Rltb v lo).
  - rewrite (Rgtb_scal c _ _ C). destruct (Rgtb lo hi); reflexivity.
  - rewrite (Rgtb_scal c _ _ C). destruct (Rgtb v hi); reflexivity.
Qed.
Lemma existsb_scal l : existsb (fun x => Reqb x 0) (map (Rmult c) l) = existsb (fun x => Reqb x 0) l.
Proof. induction l as [|x l IH]; [reflexivity|]. cbn [map existsb]. rewrite (Reqb_scal0 c x C), IH. reflexivity. Qed.
Lemma courant_times vp a cr dt so : courant (times c vp) (times c a) cr dt so = smap (times c) (courant vp a cr dt so).
Proof.
  unfold courant. destruct (_ || _ || _); [reflexivity|]. destruct (Rltb cr 0); [reflexivity|]. destruct (Rltb dt 0); [reflexivity|]. destruct (Rltb so 1); [reflexivity|].
  rewrite flatten_times, existsb_scal. destruct (existsb _ _); [reflexivity|]. cbn [smap sbind]. f_equal. unfold amap2, times, amap. cbn [adim n0 n1 n2 av]. f_equal.
  extensionality i; extensionality j; extensionality k. set (v := av vp i j k). set (s := av a i j k). set (d := INR (adim vp)).
  replace (c * v * dt / (d * (c * s))) with (v * dt / (d * s)) by (rewrite <- (div_scal c (v * dt) (d * s) C); f_equal; ring).
  destruct (Rgtb _ _); [|reflexivity]. unfold Rdiv. ring.
Qed.
Lemma pad1_times st ext b n m f i : pad1 st (c * ext) b n m (fun x => c * f x) i = c * pad1 st ext b n m f i.
Proof. unfold pad1. destruct (i <? b)%nat; [|destruct (i <? b + n)%nat; [reflexivity|]]; destruct st; try reflexivity; ring. Qed.
Lemma pad_it_times st p0 p1 p2 ext a : pad_it st p0 p1 p2 (c * ext) (times c a) = smap (times c) (pad_it st p0 p1 p2 ext a).
Proof.
  assert (forall s, s <> PadOther -> pad_it s p0 p1 p2 (c * ext) (times c a) = smap (times c) (pad_it s p0 p1 p2 ext a)) as H.
  { intros s N. unfold pad_it. destruct s; [..|congruence]; cbn [smap sbind]; f_equal; unfold times, amap; cbn [adim n0 n1 n2 av]; f_equal;
    (extensionality i; extensionality j; extensionality k; rewrite <- pad1_times; f_equal; extensionality k'; rewrite <- pad1_times; f_equal; extensionality j'; rewrite <- pad1_times; reflexivity). }
  destruct st; try (apply H; discriminate). reflexivity.
Qed.
Lemma bget_map b i : bget (map (Rmult c) b) i = c * bget b i.
Proof. unfold bget. rewrite <- (Rmult_0_r c) at 1. apply map_nth. Qed.
Lemma pad_counts_times vp b pad : pad_counts (times c vp) (map (Rmult c) b) (c * pad) = pad_counts vp b pad.
Proof.
  unfold pad_counts, dz_of, dx_of, dy_of. rewrite !bget_map. cbn [times amap n0 n1 n2 adim].
  assert (forall x y n, c * pad / ((c * x - c * y) / n) = pad / ((x - y) / n)) as E.
  { intros x y n. replace ((c * x - c * y) / n) with (c * ((x - y) / n)) by (unfold Rdiv; ring). apply div_scal, C. }
  rewrite !E. reflexivity.
Qed.
Lemma padded_times dim b pad : padded_bbox dim (map (Rmult c) b) (c * pad) = map (Rmult c) (padded_bbox dim b pad).
Proof. unfold padded_bbox. rewrite !bget_map. destruct (dim =? 3)%nat; cbn [map]; repeat (f_equal; try ring). Qed.
Definition sc3 (r : garr * garr * bbox) : garr * garr * bbox := let '(a, v, b) := r in (times c a, times c v, map (Rmult c) b).
Lemma domain_pad_times a vp b st pad : domain_pad (times c a) (times c vp) (map (Rmult c) b) st (c * pad) = smap sc3 (domain_pad a vp b st pad).
Proof.
  unfold domain_pad. rewrite Rltb_scal0, Rgtb_scal0 by exact C. destruct (Rltb pad 0); [reflexivity|]. destruct (Rgtb pad 0); [|reflexivity].
  rewrite pad_counts_times. destruct (pad_counts vp b pad) as [[p0 p1] p2]. rewrite !amax_times, !pad_it_times.
  destruct (pad_it st p0 p1 p2 (amax a) a); [|reflexivity..]. cbn [smap sbind]. destruct (pad_it st p0 p1 p2 (amax vp) vp); [|reflexivity..]. cbn [smap sbind sc3]. rewrite padded_times. reflexivity.
Qed.
End Limiter.
(** ---- the moving averages and the sizes from the velocity gradient ---- *)
Lemma mean_line_scal c w n f i : mean_line w n (fun x => c * f x) i = c * mean_line w n f i.
Proof.
  unfold mean_line. unfold Rdiv. rewrite <- Rmult_assoc. f_equal. induction (seq 0 w) as [|j l IH]; [cbn; ring|]. cbn [map fold_right]. rewrite IH. ring.
Qed.
Lemma along_times c s (F : nat -> garr -> garr) a : (forall w b, F w (times c b) = times c (F w b)) -> along s F (times c a) = times c (along s F a).
Proof. intros H. unfold along. destruct (Rltb 1 s); [apply H|reflexivity]. Qed.
Lemma mean0_times c w a : mean0 w (times c a) = times c (mean0 w a).
Proof. unfold mean0, times, amap. cbn [adim n0 n1 n2 av]. f_equal. extensionality i; extensionality j; extensionality k. apply mean_line_scal. Qed.
Lemma mean1_times c w a : mean1 w (times c a) = times c (mean1 w a).
Proof. unfold mean1, times, amap. cbn [adim n0 n1 n2 av]. f_equal. extensionality i; extensionality j; extensionality k. apply mean_line_scal. Qed.
Lemma mean2_times c w a : mean2 w (times c a) = times c (mean2 w a).
Proof. unfold mean2, times, amap. cbn [adim n0 n1 n2 av]. f_equal. extensionality i; extensionality j; extensionality k. apply mean_line_scal. Qed.
Lemma filter_times c win a : uniform_filter win (times c a) = times c (uniform_filter win a).
Proof. unfold uniform_filter. rewrite !along_times; [reflexivity|intros; apply mean2_times|intros; apply mean1_times|intros; apply mean0_times]. Qed.
Definition same_shape (a b : garr) : Prop := adim a = adim b /\ n0 a = n0 b /\ n1 a = n1 b /\ n2 a = n2 b.
Lemma along_same s F a : (forall w b, same_shape (F w b) b) -> same_shape (along s F a) a.
Proof. intros H. unfold along. destruct (Rltb 1 s); [apply H|]. repeat split. Qed.
Lemma filter_shape win a : same_shape (uniform_filter win a) a.
Proof.
  unfold uniform_filter. set (x := along (nth 0 win 0) mean0 a). assert (same_shape x a) as X by (apply along_same; repeat split).
  set (y := along (nth 1 win 0) mean1 x). assert (same_shape y x) as Y by (apply along_same; repeat split).
  assert (same_shape (along (nth 2 win 0) mean2 y) y) as Z by (apply along_same; repeat split). unfold same_shape in *. intuition congruence.
Qed.
Lemma variance_times c win vp : window_variance (uniform_filter win) (times c vp) = times (c * c) (window_variance (uniform_filter win) vp).
Proof.
  unfold window_variance. replace (amap (fun v => v * v) (times c vp)) with (times (c * c) (amap (fun v => v * v) vp)).
  - rewrite !filter_times. unfold amap2, times, amap. cbn [adim n0 n1 n2 av]. f_equal. extensionality i; extensionality j; extensionality k. ring.
  - unfold times. rewrite !amap_amap. apply amap_ext. intros v. ring.
Qed.
Lemma gradient_var_times c w grad : 0 < c -> gradient_of_variance (times c w) grad = gradient_of_variance w grad.
Proof.
  intros C. unfold gradient_of_variance. rewrite (amax_times c C), (Reqb_scal0 c _ C). destruct (Reqb (amax w) 0); [reflexivity|].
  replace (amap (fun v => v / (c * amax w)) (times c w)) with (amap (fun v => v / amax w) w); [reflexivity|].
  unfold times. rewrite amap_amap. apply amap_ext. intros v. rewrite div_scal by exact C. reflexivity.
Qed.
Lemma gradient_shape win vp grad g : gradient_sizing (uniform_filter win) vp grad = SzOk g -> same_shape g vp.
Proof.
  unfold gradient_sizing. destruct (Reqb grad 0); [intros H; injection H as <-; repeat split|]. destruct (Rltb grad 0); [discriminate|].
  unfold gradient_of_variance. destruct (Reqb _ 0); [discriminate|]. intros H. injection H as <-. cbn [amap adim n0 n1 n2 window_variance amap2].
  pose proof (filter_shape win (amap (fun v => v * v) vp)) as E. unfold same_shape in *. cbn [amap adim n0 n1 n2] in *. exact E.
Qed.
(** no velocity unit in the gradient-based sizes: they are multiples of grad *)
Lemma gradient_vel c win vp grad : 0 < c -> gradient_sizing (uniform_filter win) (times c vp) grad = gradient_sizing (uniform_filter win) vp grad.
Proof.
  intros C. unfold gradient_sizing. destruct (Reqb grad 0); [reflexivity|]. destruct (Rltb grad 0); [reflexivity|].
  rewrite variance_times, gradient_var_times; [reflexivity|]. apply Rmult_lt_0_compat; exact C.
Qed.
Lemma gradient_grad c win vp grad : 0 < c -> grad <> 0 ->
  gradient_sizing (uniform_filter win) vp (c * grad) = smap (times c) (gradient_sizing (uniform_filter win) vp grad).
Proof.
  intros C N. unfold gradient_sizing. rewrite (Reqb_scal0 c _ C), (Rltb_scal0 c _ C), (proj2 (Reqb_false _ _) N). destruct (Rltb grad 0); [reflexivity|].
  unfold gradient_of_variance. destruct (Reqb _ 0); [reflexivity|]. cbn [smap sbind]. f_equal. unfold times. rewrite !amap_amap. apply amap_ext. intros v. unfold Rdiv. ring.
Qed.
(** ---- the constant 99999 does not show when hmax is not larger ---- *)
Lemma clamp_big lo hi v : hi <= 99999 ->
  (let w := if Rltb (Rmin 99999 v) lo then lo else Rmin 99999 v in if Rgtb w hi then hi else w) = (let w := if Rltb v lo then lo else v in if Rgtb w hi then hi else w).
Proof.
  intros H. cbv zeta. unfold Rgtb, Rltb, Rmin. repeat match goal with |- context [Rle_dec ?a ?b] => destruct (Rle_dec a b) | |- context [Rlt_dec ?a ?b] => destruct (Rlt_dec a b) end; lra.
Qed.
Lemma clamp_min lo hi vp g : hi <= 99999 -> same_shape g vp -> clamp lo hi (amap2 Rmin (amap (fun _ => 99999) vp) g) = clamp lo hi g.
Proof.
  intros H (S0 & S1 & S2 & S3). unfold clamp, amap2, amap. cbn [adim n0 n1 n2 av]. rewrite S0, S1, S2, S3. f_equal. extensionality i; extensionality j; extensionality k. apply (clamp_big lo hi (av g i j k) H).
Qed.
Lemma clamp_min' lo hi vp g : hi <= 99999 -> same_shape g vp -> clamp lo hi (amap2 Rmin g (amap (fun _ => 99999) vp)) = clamp lo hi g.
Proof.
  intros H E. rewrite <- (clamp_min lo hi vp g H E). f_equal. destruct E as (S0 & S1 & S2 & S3). unfold amap2, amap. cbn [adim n0 n1 n2 av]. rewrite S0, S1, S2, S3. f_equal.
  extensionality i; extensionality j; extensionality k. apply Rmin_comm.
Qed.
Lemma min_times c a b : 0 < c -> amap2 Rmin (times c a) (times c b) = times c (amap2 Rmin a b).
Proof.
  intros C. unfold amap2, times, amap. cbn [adim n0 n1 n2 av]. f_equal. extensionality i; extensionality j; extensionality k. set (x := av a i j k). set (y := av b i j k).
  unfold Rmin. destruct (Rle_dec (c * x) _) as [H|H]; destruct (Rle_dec x _) as [K|K]; try reflexivity; exfalso.
  - apply K. apply Rmult_le_reg_l with c; assumption.
  - apply H. apply Rmult_le_compat_l; lra.
Qed.
Lemma wave_times c vp wl freq : wl <> 0 -> wavelength_sizing (times c vp) wl freq = smap (times c) (wavelength_sizing vp wl freq).
Proof.
  intros N. unfold wavelength_sizing. rewrite (proj2 (Reqb_false _ _) N). destruct (Rltb wl 0); [reflexivity|]. destruct (Rltb freq 0); [reflexivity|]. destruct (Reqb _ 0); [reflexivity|].
  cbn [smap sbind]. f_equal. unfold times. rewrite !amap_amap. apply amap_ext. intros v. unfold Rdiv. ring.
Qed.
Lemma wave_shape vp wl freq g : wavelength_sizing vp wl freq = SzOk g -> same_shape g vp.
Proof.
  unfold wavelength_sizing. destruct (Reqb wl 0); [intros H; injection H as <-; repeat split|]. destruct (Rltb wl 0); [discriminate|]. destruct (Rltb freq 0); [discriminate|].
  destruct (Reqb _ 0); [discriminate|]. intros H; injection H as <-; repeat split.
Qed.
Lemma sbind_smap {A B D} (r : sizing_result A) (f : A -> B) (k : B -> sizing_result D) : sbind (smap f r) k = sbind r (fun a => k (f a)).
Proof. destruct r; reflexivity. Qed.
Lemma initial_times c win o vp (k : garr -> sizing_result (garr * garr * bbox)) : 0 < c -> o_hmax o <= 99999 -> c * o_hmax o <= 99999 ->
  sbind (initial_size (uniform_filter win) (lengths_times c o) (times c vp)) (fun a => k (clamp (c * o_hmin o) (c * o_hmax o) a)) =
  sbind (initial_size (uniform_filter win) o vp) (fun a => k (times c (clamp (o_hmin o) (o_hmax o) a))).
Proof.
  intros C H1 H2. unfold initial_size. cbn [lengths_times o_wl o_grad o_freq o_hmin]. rewrite (Rgtb_scal0 c _ C).
  destruct (Rgtb (o_wl o) 0 || Rgtb (o_grad o) 0) eqn:E.
  2: { cbn [sbind]. rewrite <- (clamp_times c C). do 2 f_equal. }
  destruct (Req_dec (o_wl o) 0) as [W|W].
  - assert (forall v, wavelength_sizing v (o_wl o) (o_freq o) = SzOk (amap (fun _ => 99999) v)) as EW by (intros; unfold wavelength_sizing; rewrite (proj2 (Reqb_true _ _) W); reflexivity).
    rewrite !EW. cbn [sbind]. destruct (Req_dec (o_grad o) 0) as [G|G].
    { exfalso. rewrite W, G in E. unfold Rgtb, Rltb in E. destruct (Rlt_dec 0 0); [lra|discriminate]. }
    rewrite (gradient_vel c win vp _ C), (gradient_grad c win vp _ C G). destruct (gradient_sizing _ vp (o_grad o)) as [g| |] eqn:EG; [|reflexivity..]. cbn [smap sbind].
    apply gradient_shape in EG. rewrite (clamp_min _ _ _ (times c g)), (clamp_min _ _ _ g), (clamp_times c C) by assumption. reflexivity.
  - rewrite (wave_times c vp _ _ W). destruct (wavelength_sizing vp (o_wl o) (o_freq o)) as [a| |] eqn:EW; [|reflexivity..]. cbn [smap sbind]. apply wave_shape in EW.
    destruct (Req_dec (o_grad o) 0) as [G|G].
    + rewrite G, Rmult_0_r. unfold gradient_sizing. rewrite (proj2 (Reqb_true 0 0) eq_refl). cbn [sbind].
      rewrite (clamp_min' _ _ _ (times c a)), (clamp_min' _ _ _ a), (clamp_times c C) by assumption. reflexivity.
    + rewrite (gradient_vel c win vp _ C), (gradient_grad c win vp _ C G). destruct (gradient_sizing _ vp (o_grad o)) as [g| |]; [|reflexivity..]. cbn [smap sbind].
      rewrite (min_times c _ _ C), (clamp_times c C). reflexivity.
Qed.
(** ---- units and water ---- *)
Lemma convert_times c u vp : convert_units u (times c vp) = times c (convert_units u vp).
Proof. destruct u; try reflexivity; unfold convert_units, times; rewrite !amap_amap; apply amap_ext; intros v; ring. Qed.
Lemma in_triples' a b c i j k : In (i, j, k) (triples a b c) -> (i < a)%nat /\ (j < b)%nat /\ (k < c)%nat.
Proof.
  unfold triples. intros H. apply in_flat_map in H. destruct H as (k' & Hk & H). apply in_flat_map in H. destruct H as (j' & Hj & H). apply in_map_iff in H.
  destruct H as (i' & E & Hi). injection E as -> -> ->. apply in_seq in Hi, Hj, Hk. lia.
Qed.
Lemma dry_prepare o vp : dry (o_units o) vp -> prepare_vp o vp = SzOk (convert_units (o_units o) vp).
Proof.
  intros D. unfold prepare_vp, replace_water. replace (water_trigger (convert_units (o_units o) vp)) with false; [reflexivity|]. symmetry. unfold water_trigger.
  destruct (existsb _ _) eqn:E; [|reflexivity]. exfalso. apply existsb_exists in E. destruct E as ([[i j] k] & I & E). apply in_triples' in I. apply andb_true_iff in E. destruct E as [E _].
  unfold is_water in E. apply Rltb_true in E. assert (1 / 1000 <= av (convert_units (o_units o) vp) i j k); [|lra]. apply D; destruct (o_units o); cbn [convert_units amap n0 n1 n2] in I; lia.
Qed.

(** "km-s" is "m-s" on thousandfold velocities; "ft-s" is "m-s" on velocities times 0.3; anything else is not converted *)
Theorem C104_conversions : forall uf o b vp,
  get_sizing uf (with_units KMS o) b vp = get_sizing uf (with_units MS o) b (times 1000 vp) /\
  get_sizing uf (with_units FTS o) b vp = get_sizing uf (with_units MS o) b (times (3 / 10) vp) /\
  get_sizing uf (with_units OtherUnits o) b vp = get_sizing uf (with_units MS o) b vp.
Proof.
  intros uf o b vp.
  assert (forall c, amap (fun v => v * c) vp = times c vp) as E by (intros c; apply amap_ext; intros v; ring).
  split; [|split; [|reflexivity]]; unfold get_sizing, prepare_vp; cbn [with_units o_units convert_units]; rewrite E; reflexivity.
Qed.
Print Assumptions C104_conversions.

(** lengths in another unit: velocities, box, hmin, hmax, grad and domain_pad c times larger give sizes c times larger *)
Theorem C104_unit_of_length : forall c win o b vp, 0 < c -> dry (o_units o) vp -> dry (o_units o) (times c vp) -> o_hmax o <= 99999 -> c * o_hmax o <= 99999 ->
  get_sizing (uniform_filter win) (lengths_times c o) (map (Rmult c) b) (times c vp) =
  match get_sizing (uniform_filter win) o b vp with
  | SzOk (a, v, b') => SzOk (times c a, times c v, map (Rmult c) b')
  | SzErr e => SzErr e
  | SzNonFinite => SzNonFinite
  end.
Proof.
  intros c win o b vp C D1 D2 H1 H2. unfold get_sizing.
  rewrite (dry_prepare o vp D1), (dry_prepare (lengths_times c o) (times c vp) D2). change (o_units (lengths_times c o)) with (o_units o). rewrite convert_times. set (v := convert_units (o_units o) vp). cbn [sbind].
  unfold bbox_dim. rewrite map_length. destruct (if (length b =? 4)%nat then _ else _) as [dim|]; [|reflexivity].
  cbn [lengths_times o_hmin o_hmax o_cr_max o_dt o_space_order o_grade o_pad_style o_domain_pad]. cbv zeta.
  rewrite (initial_times c win o v (fun a1 => sbind (courant (times c v) a1 (o_cr_max o) (o_dt o) (o_space_order o)) (fun a2 =>
     sbind (gradation a2 (o_grade o) ((bget (map (Rmult c) b) 1 - bget (map (Rmult c) b) 0) / INR (n0 (times c v)))) (fun a3 => domain_pad a3 (times c v) (map (Rmult c) b) (o_pad_style o) (c * o_domain_pad o)))) C H1 H2).
  destruct (initial_size _ o v) as [a0| |]; [|reflexivity..]. cbn [sbind]. set (a1 := clamp (o_hmin o) (o_hmax o) a0). rewrite (courant_times c C), sbind_smap.
  destruct (courant v a1 _ _ _) as [a2| |]; [|reflexivity..]. cbn [sbind].
  replace ((bget (map (Rmult c) b) 1 - bget (map (Rmult c) b) 0) / INR (n0 (times c v))) with (c * ((bget b 1 - bget b 0) / INR (n0 v))) by (rewrite !bget_map; cbn [times amap n0]; unfold Rdiv; ring).
  rewrite (gradation_times c C), sbind_smap. destruct (gradation a2 _ _) as [a3| |]; [|reflexivity..]. cbn [sbind].
  rewrite (domain_pad_times c C). destruct (domain_pad a3 v b _ _) as [[[a4 v4] b4]| |]; reflexivity.
Qed.
Print Assumptions C104_unit_of_length.
(** another unit of time: velocities and freq c times larger, dt c times smaller give the same sizes *)
Lemma courant_time c vp a cr dt so : 0 < c -> courant (times c vp) a cr (dt / c) so = courant vp a cr dt so.
Proof.
  intros C. assert (0 < / c) as I by (apply Rinv_0_lt_compat, C). unfold courant. replace (dt / c) with (/ c * dt) by (unfold Rdiv; ring). rewrite (Reqb_scal0 _ _ I), (Rltb_scal0 _ _ I).
  destruct (_ || _ || _); [reflexivity|]. destruct (Rltb cr 0); [reflexivity|]. destruct (Rltb dt 0); [reflexivity|]. destruct (Rltb so 1); [reflexivity|].
  destruct (existsb _ _); [reflexivity|]. f_equal. unfold amap2, times, amap. cbn [adim n0 n1 n2 av]. f_equal.
  extensionality i; extensionality j; extensionality k. replace (c * av vp i j k * (/ c * dt)) with (av vp i j k * dt) by (field; lra). reflexivity.
Qed.
Lemma wave_time c vp wl freq : 0 < c -> wavelength_sizing (times c vp) wl (c * freq) = wavelength_sizing vp wl freq.
Proof.
  intros C. unfold wavelength_sizing. destruct (Reqb wl 0); [reflexivity|]. destruct (Rltb wl 0); [reflexivity|]. rewrite (Rltb_scal0 c _ C). destruct (Rltb freq 0); [reflexivity|].
  replace (c * freq * wl) with (c * (freq * wl)) by ring. rewrite (Reqb_scal0 c _ C). destruct (Reqb _ 0); [reflexivity|]. f_equal. unfold times. rewrite amap_amap. apply amap_ext. intros v. apply div_scal, C.
Qed.
Theorem C104_unit_of_time : forall c win o b vp, 0 < c -> dry (o_units o) vp -> dry (o_units o) (times c vp) ->
  get_sizing (uniform_filter win) (times_times c o) b (times c vp) =
  match get_sizing (uniform_filter win) o b vp with
  | SzOk (a, v, b') => SzOk (a, times c v, b')
  | SzErr e => SzErr e
  | SzNonFinite => SzNonFinite
  end.
Proof.
  intros c win o b vp C D1 D2. unfold get_sizing.
  rewrite (dry_prepare o vp D1), (dry_prepare (times_times c o) (times c vp) D2). change (o_units (times_times c o)) with (o_units o). rewrite convert_times. set (v := convert_units (o_units o) vp). cbn [sbind].
  destruct (bbox_dim b) as [dim|]; [|reflexivity]. cbn [times_times o_hmin o_hmax o_cr_max o_dt o_space_order o_grade o_pad_style o_domain_pad]. cbv zeta.
  replace (initial_size (uniform_filter win) (times_times c o) (times c v)) with (initial_size (uniform_filter win) o v).
  2: { unfold initial_size. cbn [times_times o_wl o_grad o_freq o_hmin]. rewrite (wave_time c v _ _ C), (gradient_vel c win v _ C). reflexivity. }
  destruct (initial_size _ o v) as [a0| |]; [|reflexivity..]. cbn [sbind]. rewrite (courant_time c _ _ _ _ _ C). destruct (courant v _ _ _ _) as [a2| |]; [|reflexivity..]. cbn [sbind].
  change (n0 (times c v)) with (n0 v). destruct (gradation a2 _ _) as [a3| |]; [|reflexivity..]. cbn [sbind]. unfold domain_pad.
  destruct (Rltb _ 0); [reflexivity|]. destruct (Rgtb _ 0); [|reflexivity]. change (pad_counts (times c v) b (o_domain_pad o)) with (pad_counts v b (o_domain_pad o)).
  destruct (pad_counts v b (o_domain_pad o)) as [[p0 p1] p2]. destruct (pad_it _ p0 p1 p2 (amax a3) a3); [|reflexivity..]. cbn [sbind].
  rewrite (amax_times c C), (pad_it_times c). destruct (pad_it _ p0 p1 p2 (amax v) v); reflexivity.
Qed.
Print Assumptions C104_unit_of_time.

(** sizes from the wavelength alone *)
Definition wave_opts (u : units) (hmin hmax wl freq : R) : opts := mkOpts (Some 1500) hmin hmax wl freq 0 0 1 0 1 PadEdge 0 u.
Lemma wave_only uf u hmin hmax wl freq b vp v : 0 < wl -> 0 < freq -> length b = 4%nat -> prepare_vp (wave_opts u hmin hmax wl freq) vp = SzOk v ->
  get_sizing uf (wave_opts u hmin hmax wl freq) b vp = SzOk (clamp hmin hmax (amap2 Rmin (amap (fun x => x / (freq * wl)) v) (amap (fun _ => 99999) v)), v, b).
Proof.
  intros W F L E. unfold get_sizing. rewrite E. cbn [sbind]. unfold bbox_dim. rewrite L. cbn [Nat.eqb]. unfold initial_size. cbn [wave_opts o_wl o_grad o_freq o_hmin o_hmax o_cr_max o_dt o_space_order o_grade o_pad_style o_domain_pad].
  assert (Rgtb wl 0 = true) as -> by (apply Rltb_true; exact W). cbn [orb]. unfold wavelength_sizing, gradient_sizing.
  assert (0 < freq * wl) as P by (apply Rmult_lt_0_compat; assumption).
  rewrite (proj2 (Reqb_false wl 0)), (proj2 (Rltb_false wl 0)), (proj2 (Rltb_false freq 0)), (proj2 (Reqb_false (freq * wl) 0)), (proj2 (Reqb_true 0 0)) by lra. cbn [sbind].
  unfold courant. rewrite (proj2 (Reqb_true 0 0)) by lra. rewrite orb_true_r. cbn [orb sbind]. unfold gradation. rewrite (proj2 (Reqb_true 0 0)) by lra. cbn [sbind].
  unfold domain_pad. rewrite (proj2 (Rltb_false 0 0)) by lra. assert (Rgtb 0 0 = false) as -> by (apply Rltb_false; lra). reflexivity.
Qed.
(** a foot counts as 0.30 m: the velocities used are 125/127 of the true ones, and so are the sizes between hmin and hmax *)
Theorem C104_feet : forall uf hmin hmax wl freq b vp, 0 < wl -> 0 < freq -> length b = 4%nat -> dry FTS vp -> 0 < hmax <= 99999 ->
  exists a v, get_sizing uf (wave_opts FTS hmin hmax wl freq) b vp = SzOk (a, v, b) /\
  forall i j k, let true_vp := 3048 / 10000 * av vp i j k in
    av v i j k = 125 / 127 * true_vp /\
    (hmin <= 125 / 127 * (true_vp / (freq * wl)) <= hmax -> av a i j k = 125 / 127 * (true_vp / (freq * wl))).
Proof.
  intros uf hmin hmax wl freq b vp W F L D H. pose proof (dry_prepare (wave_opts FTS hmin hmax wl freq) vp D) as E. rewrite (wave_only uf _ _ _ _ _ _ _ _ W F L E).
  do 2 eexists. split; [reflexivity|]. intros i j k t. split; [cbn [wave_opts o_units convert_units amap av]; unfold t; lra|]. intros B.
  cbn [wave_opts o_units convert_units]. unfold clamp, amap2, amap. cbn [av adim n0 n1 n2].
  replace (av vp i j k * (3 / 10) / (freq * wl)) with (125 / 127 * (t / (freq * wl))) by (unfold t, Rdiv; lra). set (x := 125 / 127 * (t / (freq * wl))) in *.
  rewrite Rmin_left by lra. rewrite (proj2 (Rltb_false x hmin)) by lra. assert (Rgtb x hmax = false) as -> by (apply Rltb_false; lra). reflexivity.
Qed.
Print Assumptions C104_feet.

(** water (0 m/s) becomes vp_water in m/s whatever the unit of the other velocities; and the hidden constant 99999 shows when hmax is larger *)
Definition pair_vp (x y : R) : garr := mkArr 2 2 1 1 (fun i _ _ => match i with O => x | _ => y end).
Theorem C104_not_scaled_refuted :
  (exists a a', get_sizing (fun x => x) (wave_opts MS 10 5000 1 1) [-1000; 0; 0; 1000] (pair_vp 2000 0) = SzOk a /\
     get_sizing (fun x => x) (lengths_times (1 / 1000) (wave_opts MS 10 5000 1 1)) (map (Rmult (1 / 1000)) [-1000; 0; 0; 1000]) (times (1 / 1000) (pair_vp 2000 0)) = SzOk a' /\
     av (fst (fst a)) 1 0 0 = 1500 /\ av (fst (fst a')) 1 0 0 = 5) /\
  (exists a a', get_sizing (fun x => x) (wave_opts MS 10 200000 (1 / 100) 1) [-1000; 0; 0; 1000] (pair_vp 2000 1500) = SzOk a /\
     get_sizing (fun x => x) (lengths_times (1 / 1000) (wave_opts MS 10 200000 (1 / 100) 1)) (map (Rmult (1 / 1000)) [-1000; 0; 0; 1000]) (times (1 / 1000) (pair_vp 2000 1500)) = SzOk a' /\
     av (fst (fst a)) 1 0 0 = 99999 /\ av (fst (fst a')) 1 0 0 = 150).
Proof.
  assert (forall c lo hi wl fr, lengths_times c (wave_opts MS lo hi wl fr) = wave_opts MS (c * lo) (c * hi) wl fr) as EL by (intros; unfold lengths_times, wave_opts; cbn; rewrite !Rmult_0_r; reflexivity).
  assert (forall x y, 1 / 1000 <= x -> 1 / 1000 <= y -> forall lo hi wl fr, prepare_vp (wave_opts MS lo hi wl fr) (pair_vp x y) = SzOk (pair_vp x y)) as PD.
  { intros x y X Y lo hi wl fr. apply (dry_prepare (wave_opts MS lo hi wl fr)). intros [|i] j k _ _ _; cbn; lra. }
  assert (forall x, 1 / 1000 <= x -> forall lo hi wl fr, prepare_vp (wave_opts MS lo hi wl fr) (pair_vp x 0) = SzOk (amap (fun v => if is_water v then 1500 else v) (pair_vp x 0))) as PW.
  { intros x X lo hi wl fr. unfold prepare_vp. cbn [wave_opts o_units o_vp_water convert_units]. unfold replace_water, water_trigger. cbn [pair_vp n0 n1 n2 triples seq flat_map map app existsb av Nat.eqb negb].
    unfold is_water at 1 2. rewrite (proj2 (Rltb_false x _)), (proj2 (Rltb_true 0 _)) by lra. cbn [andb orb]. assert (Rltb 1500 1300 || Rgtb 1500 1800 = false) as ->; [|reflexivity].
    unfold Rgtb. rewrite !(proj2 (Rltb_false _ _)) by lra. reflexivity. }
  assert (forall x y, times (1 / 1000) (pair_vp x y) = pair_vp (1 / 1000 * x) (1 / 1000 * y)) as EP.
  { intros x y. unfold times, amap, pair_vp. cbn [adim n0 n1 n2 av]. f_equal. extensionality i; extensionality j; extensionality k. destruct i; reflexivity. }
  split; do 2 eexists.
  - rewrite EL, EP, Rmult_0_r. split; [apply wave_only; [lra..|reflexivity|apply PW; lra]|]. split; [apply wave_only; [lra..|reflexivity|apply PW; lra]|].
    unfold clamp, amap2, amap. cbn [fst av pair_vp n0 n1 n2 adim]. unfold is_water, Rgtb. rewrite !(proj2 (Rltb_true 0 (1 / 1000))) by lra.
    replace (1500 / (1 * 1)) with 1500 by lra. rewrite !Rmin_left by lra. split.
    + rewrite (proj2 (Rltb_false 1500 10)), (proj2 (Rltb_false 5000 1500)) by lra. reflexivity.
    + rewrite (proj2 (Rltb_false 1500 (1 / 1000 * 10))), (proj2 (Rltb_true (1 / 1000 * 5000) 1500)) by lra. lra.
  - rewrite EL, EP. split; [apply wave_only; [lra..|reflexivity|apply PD; lra]|]. split; [apply wave_only; [lra..|reflexivity|apply PD; lra]|].
    unfold clamp, amap2, amap. cbn [fst av pair_vp n0 n1 n2 adim]. unfold Rgtb. replace (1500 / (1 * (1 / 100))) with 150000 by lra. replace (1 / 1000 * 1500 / (1 * (1 / 100))) with 150 by lra.
    rewrite Rmin_right by lra. rewrite Rmin_left by lra. split.
    + rewrite (proj2 (Rltb_false 99999 10)), (proj2 (Rltb_false 200000 99999)) by lra. reflexivity.
    + rewrite (proj2 (Rltb_false 150 (1 / 1000 * 10))), (proj2 (Rltb_false (1 / 1000 * 200000) 150)) by lra. reflexivity.
Qed.
Print Assumptions C104_not_scaled_refuted.

(** a model in km/s with lengths in km *)
Example C104_case : dry MS (pair_vp 1500 3000) /\ dry MS (times (1 / 1000) (pair_vp 1500 3000)) /\ o_hmax (wave_opts MS 10 5000 5 2) <= 99999 /\ 1 / 1000 * o_hmax (wave_opts MS 10 5000 5 2) <= 99999 /\
  dry FTS (pair_vp 5000 10000) /\ 10 <= 125 / 127 * (3048 / 10000 * 5000 / (2 * 5)) <= 5000.
Proof. split; [|split; [|split; [|split; [|split]]]]; try (cbn; lra); intros [|i] j k _ _ _; cbn; lra. Qed.
