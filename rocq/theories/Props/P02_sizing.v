(** C07-C16, C18: the size function built by get_sizing_function_from_segy.
    [ufilter] is scipy's uniform_filter (arbitrary).  [inr a i j k]: (i,j,k) is an index of array a.
    [int_grid]: all extents positive, at most 2^31 entries. *)
From Coq Require Import List ZArith Reals Lia Lra Bool.
From Verif Require Import Model.Base Model.FastHJ Model.Sizing Spec.Grid
  Proofs.ListAux Proofs.GridIndex Proofs.Limgrad Proofs.LimgradMain Proofs.SizingArr Proofs.SizingMain Proofs.SizingMore.
Import ListNotations.
Local Open Scope R_scope.

(** C07 *)
Theorem C07_sizes_between_hmin_and_hmax : forall ufilter o b vp a4 vp4 b4,
  int_grid vp -> bget b 0 <= bget b 1 -> 0 <= o_hmin o <= o_hmax o ->
  (o_dt o = 0 \/ o_cr_max o = 0 \/ o_space_order o = 0) ->
  get_sizing ufilter o b vp = SzOk (a4, vp4, b4) ->
  forall i j k, inr a4 i j k -> o_hmin o <= av a4 i j k <= o_hmax o.
Proof. exact sizes_in_range. Qed.
Print Assumptions C07_sizes_between_hmin_and_hmax.

(** wavelength sizing, grading 0.1, on a 2x2 model *)
Example C07_case : exists o b vp r, int_grid vp /\ bget b 0 <= bget b 1 /\ 0 <= o_hmin o <= o_hmax o /\ o_dt o = 0 /\
  0 < o_wl o /\ 0 < o_grade o /\ get_sizing (fun a => a) o b vp = SzOk r.
Proof.
  destruct (x_gradient_exceeds (fun a => a)) as (o & b & vp & a4 & vp4 & b4 & H1 & H2 & H3 & H4 & H5 & _).
  exists c16_opts, c16_box, (sq2 1000 1100), (reshapeF 2 2 2 1 [1; 1; 11/10; 11/10], sq2 1000 1100, c16_box).
  split; [unfold int_grid; cbn; lia|]. split; [cbn; lra|]. unfold c16_opts; cbn [o_hmin o_hmax o_dt o_wl o_grade].
  split; [lra|]. split; [reflexivity|]. split; [lra|]. split; [lra|]. apply c16_get_sizing.
Qed.

(** C08: never below hmin, whatever the timestep *)
Theorem C08_never_below_hmin : forall ufilter o b vp a4 vp4 b4,
  int_grid vp -> bget b 0 <= bget b 1 -> 0 < o_hmin o <= o_hmax o -> (0 < adim vp)%nat ->
  get_sizing ufilter o b vp = SzOk (a4, vp4, b4) ->
  forall i j k, inr a4 i j k -> o_hmin o <= av a4 i j k.
Proof. exact sizes_above_hmin. Qed.
Print Assumptions C08_never_below_hmin.

(** C08: hmax is exceeded for some input *)
Theorem C08_hmax_exceeded_with_dt : forall ufilter, exists o b vp a4 vp4 b4 i j k,
  int_grid vp /\ 0 < o_hmin o <= o_hmax o /\ 0 < o_dt o /\
  get_sizing ufilter o b vp = SzOk (a4, vp4, b4) /\ inr a4 i j k /\ o_hmax o < av a4 i j k.
Proof. exact dt_exceeds_hmax. Qed.
Print Assumptions C08_hmax_exceeded_with_dt.

(** C09: pointwise effect of the Courant step *)
Theorem C09_courant_step : forall vp a cr_max dt space_order a' i j k,
  courant vp a cr_max dt space_order = SzOk a' -> 0 < cr_max -> 0 < dt -> 1 <= space_order ->
  (0 < adim vp)%nat -> 0 < av a i j k ->
  let dim := INR (adim vp) in
  av a i j k <= av a' i j k /\
  av vp i j k * dt / (dim * av a' i j k) <= cr_max / (dim * space_order) /\
  (av vp i j k * dt / (dim * av a i j k) <= cr_max / (dim * space_order) -> av a' i j k = av a i j k).
Proof. exact courant_point. Qed.
Print Assumptions C09_courant_step.

(** C09: it runs on every positive size array *)
Theorem C09_courant_succeeds : forall vp a cr_max dt space_order,
  0 < cr_max -> 0 < dt -> 1 <= space_order -> (forall i j k, inr a i j k -> 0 < av a i j k) ->
  exists a', courant vp a cr_max dt space_order = SzOk a' /\ shape_eq a' (mkArr (adim vp) (n0 vp) (n1 vp) (n2 vp) (av a')).
Proof. exact courant_succeeds. Qed.
Print Assumptions C09_courant_succeeds.

(** C09: disabling and rejection *)
Theorem C09_courant_parameters : forall vp a cr_max dt space_order,
  ((cr_max = 0 \/ dt = 0 \/ space_order = 0) -> courant vp a cr_max dt space_order = SzOk a) /\
  (cr_max <> 0 -> dt <> 0 -> space_order <> 0 -> (cr_max < 0 \/ dt < 0 \/ space_order < 1) ->
     courant vp a cr_max dt space_order = SzErr ValueError).
Proof. exact courant_parameters. Qed.
Print Assumptions C09_courant_parameters.

Example C09_case : exists a', courant c10_vp (mkArr 2 2 1 1 (fun _ _ _ => 3/2)) 1 (1/1000) 1 = SzOk a' /\
  0 < (3/2 : R) /\ av c10_vp 0%nat 0%nat 0%nat * (1/1000) / (2 * (3/2)) > 1 / (2 * 1).
Proof.
  destruct (courant_succeeds c10_vp (mkArr 2 2 1 1 (fun _ _ _ => 3/2)) 1 (1/1000) 1) as (a' & E & _); try lra.
  { intros i j k _. cbn. lra. }
  exists a'. split; [exact E|]. split; [lra|]. cbn. lra.
Qed.

(** C10: without grading the final grid satisfies the Courant bound at every original grid point;
    (p0,p1,p2) are the numbers of layers the padding puts in front. *)
Theorem C10_courant_holds_without_grading : forall ufilter o b vp vp1 a4 vp4 b4 p0 p1 p2,
  0 < o_hmin o <= o_hmax o -> (0 < adim vp)%nat ->
  o_grade o = 0 -> 0 < o_cr_max o -> 0 < o_dt o -> 1 <= o_space_order o ->
  prepare_vp o vp = SzOk vp1 -> pad_of o b vp = (p0, p1, p2) ->
  get_sizing ufilter o b vp = SzOk (a4, vp4, b4) ->
  forall i j k, inr vp i j k ->
  av vp1 i j k * o_dt o / (INR (adim vp) * av a4 (p0 + i)%nat (p1 + j)%nat (p2 + k)%nat)
    <= o_cr_max o / (INR (adim vp) * o_space_order o).
Proof. exact courant_without_grading. Qed.
Print Assumptions C10_courant_holds_without_grading.

(** C10: with grading it is violated for some input *)
Theorem C10_grading_breaks_courant : forall ufilter, exists o b vp a4 vp4 b4 i j k,
  int_grid vp /\ 0 < o_hmin o <= o_hmax o /\ 0 < o_dt o /\ 0 < o_cr_max o /\ 1 <= o_space_order o /\ 0 < o_grade o /\
  get_sizing ufilter o b vp = SzOk (a4, vp4, b4) /\ inr a4 i j k /\
  o_cr_max o / (INR (adim vp) * o_space_order o) < av vp4 i j k * o_dt o / (INR (adim vp) * av a4 i j k).
Proof. exact grading_breaks_courant. Qed.
Print Assumptions C10_grading_breaks_courant.

(** the C08 witness meets the hypotheses of C10_courant_holds_without_grading *)
Example C10_case : exists r, get_sizing (fun a => a) c08_opts c10_box (col2 1800 1500) = SzOk r /\
  o_grade c08_opts = 0 /\ 0 < o_cr_max c08_opts /\ 0 < o_dt c08_opts /\ 1 <= o_space_order c08_opts /\ 0 < o_hmin c08_opts <= o_hmax c08_opts.
Proof.
  destruct (c08_run (fun a => a)) as (a4 & E & _). exists (a4, col2 1800 1500, c10_box). split; [exact E|].
  cbn. repeat split; lra.
Qed.

(** C11 *)
Theorem C11_cells_per_wavelength : forall ufilter o b vp vp1 a4 vp4 b4 p0 p1 p2,
  int_grid vp -> bget b 0 <= bget b 1 -> 0 <= o_hmin o <= o_hmax o ->
  (o_dt o = 0 \/ o_cr_max o = 0 \/ o_space_order o = 0) -> 0 < o_wl o ->
  prepare_vp o vp = SzOk vp1 -> pad_of o b vp = (p0, p1, p2) ->
  get_sizing ufilter o b vp = SzOk (a4, vp4, b4) ->
  forall i j k, inr vp i j k ->
  av a4 (p0 + i)%nat (p1 + j)%nat (p2 + k)%nat <= Rmax (o_hmin o) (av vp1 i j k / (o_freq o * o_wl o)).
Proof. exact cells_per_wavelength. Qed.
Print Assumptions C11_cells_per_wavelength.

Example C11_case : prepare_vp c16_opts (sq2 1000 1100) = SzOk (sq2 1000 1100) /\
  pad_of c16_opts c16_box (sq2 1000 1100) = (0, 0, 0)%nat /\ 0 < o_wl c16_opts /\
  exists r, get_sizing (fun a => a) c16_opts c16_box (sq2 1000 1100) = SzOk r.
Proof.
  split; [apply c16_prepare|]. split.
  - unfold pad_of, c16_opts, Rgtb; cbn [o_domain_pad]. rewrite (proj2 (Rltb_false 0 0)) by lra. reflexivity.
  - split; [cbn; lra|]. eexists. apply c16_get_sizing.
Qed.

(** C12 *)
Theorem C12_water_replaced : forall w vp,
  (exists i j k, inr vp i j k /\ (0 < i)%nat /\ av vp i j k < 1 / 1000) ->
  (forall x, w = Some x -> 1300 <= x <= 1800 ->
     exists vp1, replace_water w vp = SzOk vp1 /\ shape_eq vp1 vp /\
       forall i j k, av vp1 i j k = if Rlt_dec (av vp i j k) (1 / 1000) then x else av vp i j k) /\
  ((w = None \/ exists x, w = Some x /\ (x < 1300 \/ 1800 < x)) -> replace_water w vp = SzErr ValueError).
Proof. exact water_replaced. Qed.
Print Assumptions C12_water_replaced.

Theorem C12_water_only_in_row0_is_kept : forall w vp,
  (forall i j k, inr vp i j k -> (0 < i)%nat -> 1 / 1000 <= av vp i j k) -> replace_water w vp = SzOk vp.
Proof. exact water_row0_kept. Qed.
Print Assumptions C12_water_only_in_row0_is_kept.

Example C12_case : (exists i j k, inr (col2 1500 0) i j k /\ (0 < i)%nat /\ av (col2 1500 0) i j k < 1 / 1000) /\
  (forall i j k, inr (col2 0 1500) i j k -> (0 < i)%nat -> 1 / 1000 <= av (col2 0 1500) i j k) /\
  (exists i j k, inr (col2 0 1500) i j k /\ av (col2 0 1500) i j k < 1 / 1000).
Proof.
  split; [exists 1%nat, 0%nat, 0%nat; unfold inr; cbn; repeat split; try lia; lra|]. split.
  - intros i j k Hin Hi. destruct (col2_inr _ _ _ _ _ Hin) as [[->| ->] _]; [lia|]. cbn. lra.
  - exists 0%nat, 0%nat, 0%nat. unfold inr; cbn. repeat split; try lia; lra.
Qed.

(** C13.  [prepare_vp o vp] is the content of the caller's array after the first call. *)
Theorem C13_repeatable_in_metres : forall ufilter o b vp, o_units o = MS ->
  (forall i j k, inr vp i j k -> (0 < i)%nat -> 1 / 1000 <= av vp i j k) ->
  prepare_vp o vp = SzOk vp /\ second_call ufilter o b vp = get_sizing ufilter o b vp.
Proof. exact repeatable_ms. Qed.
Print Assumptions C13_repeatable_in_metres.

Theorem C13_km_s_array_is_scaled : forall o vp, o_units o = KMS ->
  (forall i j k, inr vp i j k -> 1 / 1000000 <= av vp i j k) ->
  exists vp', prepare_vp o vp = SzOk vp' /\ forall i j k, av vp' i j k = 1000 * av vp i j k.
Proof. exact (fun o vp => km_s_scales o vp). Qed.
Print Assumptions C13_km_s_array_is_scaled.

Theorem C13_not_repeatable_in_km : forall ufilter, exists o b vp a vp1 a' vp1' i j k,
  o_units o = KMS /\ int_grid vp /\
  get_sizing ufilter o b vp = SzOk (a, vp1, b) /\ second_call ufilter o b vp = SzOk (a', vp1', b) /\
  inr a i j k /\ inr a' i j k /\ av a i j k <> av a' i j k.
Proof. exact not_repeatable_kms. Qed.
Print Assumptions C13_not_repeatable_in_km.

Example C13_case : o_units c10_opts = MS /\ forall i j k, inr c10_vp i j k -> (0 < i)%nat -> 1 / 1000 <= av c10_vp i j k.
Proof. split; [reflexivity|]. intros i j k Hin _. unfold c10_vp in *. destruct (col2_inr _ _ _ _ _ Hin) as [[->| ->] _]; cbn; lra. Qed.

(** C14.  [dz_of], [dx_of], [dy_of]: box edge length divided by number of grid points. *)
Theorem C14_padding : forall a vp b st pad, st <> PadOther -> 0 < pad -> shape_eq a vp -> positive_shape vp ->
  let dz := (nth 1 b 0 - nth 0 b 0) / INR (n0 vp) in let dx := (nth 3 b 0 - nth 2 b 0) / INR (n1 vp) in let dy := (nth 5 b 0 - nth 4 b 0) / INR (n2 vp) in
  0 < dz -> 0 < dx -> (adim vp = 3%nat -> 0 < dy) ->
  exists a' vp' p0 p1 p2,
    domain_pad a vp b st pad = SzOk (a', vp', padded_bbox (adim vp) b pad) /\
    INR p0 <= pad / dz < INR p0 + 1 /\ INR p1 <= pad / dx < INR p1 + 1 /\
    (adim vp = 3%nat -> INR p2 <= pad / dy < INR p2 + 1) /\ (adim vp <> 3%nat -> p2 = 0%nat) /\
    n0 a' = (p0 + n0 a)%nat /\ n1 a' = (p1 + n1 a + p1)%nat /\ n2 a' = (p2 + n2 a + p2)%nat /\ shape_eq vp' a' /\
    (forall i j k, inr a i j k -> av a' (p0 + i)%nat (p1 + j)%nat (p2 + k)%nat = av a i j k) /\
    (forall i j k, inr vp i j k -> av vp' (p0 + i)%nat (p1 + j)%nat (p2 + k)%nat = av vp i j k) /\
    (st = PadEdge -> forall i j k,
       av a' i j k = av a (Nat.min (i - p0) (n0 a - 1)) (Nat.min (j - p1) (n1 a - 1)) (Nat.min (k - p2) (n2 a - 1))).
Proof. exact domain_pad_ok. Qed.
Print Assumptions C14_padding.

(** the new box: w more below (zmin side) and on both lateral sides, same zmax *)
Theorem C14_padded_box : forall zmin zmax xmin xmax ymin ymax w,
  padded_bbox 2 [zmin; zmax; xmin; xmax] w = [zmin - w; zmax; xmin - w; xmax + w] /\
  padded_bbox 3 [zmin; zmax; xmin; xmax; ymin; ymax] w = [zmin - w; zmax; xmin - w; xmax + w; ymin - w; ymax + w].
Proof. exact (fun _ _ _ _ _ _ _ => conj eq_refl eq_refl). Qed.
Print Assumptions C14_padded_box.

Theorem C14_rejections : forall a vp b st pad,
  (pad < 0 -> domain_pad a vp b st pad = SzErr ValueError) /\
  (0 < pad -> domain_pad a vp b PadOther pad = SzErr ValueError) /\
  domain_pad a vp b st 0 = SzOk (a, vp, b).
Proof. exact domain_pad_rejects. Qed.
Print Assumptions C14_rejections.

Example C14_case : 0 < dz_of c10_vp c10_box /\ 0 < dx_of c10_vp c10_box /\ positive_shape c10_vp /\ adim c10_vp <> 3%nat.
Proof. unfold dz_of, dx_of, positive_shape; cbn. repeat split; try lra; try lia; discriminate. Qed.

(** C15: n whole cells of padding on a z axis of nz points; [linspace lo hi n i] is the i-th grid coordinate.
    The original first row is row n of the padded array, the original last row the last one. *)
Theorem C15_padding_moves_the_data : forall b0 b1 nz n, (0 < nz)%nat -> (0 < n)%nat -> b0 < b1 ->
  let dz := (b1 - b0) / INR nz in let pad := INR n * dz in
  linspace (b0 - pad) b1 (n + nz) n = b0 + pad / INR (n + nz - 1) /\
  linspace (b0 - pad) b1 (n + nz) n - (b0 - pad) = pad * (INR (nz + n) / INR (nz + n - 1)) /\
  linspace (b0 - pad) b1 (n + nz) n <> b0 /\
  linspace (b0 - pad) b1 (n + nz) (n + nz - 1) = b1.
Proof. exact pad_shift. Qed.
Print Assumptions C15_padding_moves_the_data.

(** the same of the padded grid itself: its row n holds the values of the original first row, and that row's coordinate in the
    padded grid is not the original box edge; the last row keeps its coordinate *)
Theorem C15_padded_rows : forall a vp b st n, st <> PadOther -> (0 < n)%nat -> shape_eq a vp -> positive_shape vp ->
  0 < dz_of vp b -> 0 < dx_of vp b -> (adim vp = 3%nat -> 0 < dy_of vp b) ->
  exists a' vp' b' p1 p2, domain_pad a vp b st (INR n * dz_of vp b) = SzOk (a', vp', b') /\ n0 a' = (n + n0 a)%nat /\
    (forall i j k, inr a i j k -> av a' (n + i)%nat (p1 + j)%nat (p2 + k)%nat = av a i j k) /\
    linspace (bget b' 0) (bget b' 1) (n0 a') n <> bget b 0 /\ bget b' 1 = bget b 1 /\
    linspace (bget b' 0) (bget b' 1) (n0 a') (n0 a' - 1) = bget b 1.
Proof.
  intros a vp b st n Hst Hn Hs Hp Hz Hx Hy.
  assert (0 < INR n) as Pn by (apply lt_0_INR; exact Hn).
  destruct (domain_pad_ok a vp b st (INR n * dz_of vp b) Hst ltac:(apply Rmult_lt_0_compat; assumption) Hs Hp Hz Hx Hy)
    as (a' & vp' & p0 & p1 & p2 & E & P0 & _ & _ & _ & N0 & _ & _ & _ & V & _).
  replace (INR n * dz_of vp b / dz_of vp b) with (INR n) in P0 by (field; lra).
  assert (p0 = n) as ->. { destruct P0 as [A B]. rewrite <- S_INR in B. apply INR_le in A. apply INR_lt in B. lia. }
  exists a', vp', (padded_bbox (adim vp) b (INR n * dz_of vp b)), p1, p2. split; [exact E|]. split; [exact N0|]. split; [exact V|].
  assert (bget (padded_bbox (adim vp) b (INR n * dz_of vp b)) 0 = bget b 0 - INR n * dz_of vp b) as -> by (unfold padded_bbox; destruct (Nat.eqb (adim vp) 3); reflexivity).
  assert (bget (padded_bbox (adim vp) b (INR n * dz_of vp b)) 1 = bget b 1) as -> by (unfold padded_bbox; destruct (Nat.eqb (adim vp) 3); reflexivity).
  destruct Hp as [Hp _]. destruct Hs as (Q0 & Q1 & _). rewrite N0. replace (n0 a) with (n0 vp) by congruence.
  assert (bget b 0 < bget b 1) as Hb.
  { unfold dz_of in Hz. apply Rnot_le_lt. intros C. assert (0 < INR (n0 vp)) by (apply lt_0_INR; exact Hp).
    assert ((bget b 1 - bget b 0) / INR (n0 vp) <= 0); [|lra]. unfold Rdiv. apply Rmult_le_reg_r with (INR (n0 vp)); [assumption|]. rewrite Rmult_assoc, Rinv_l, Rmult_1_r, Rmult_0_l by lra. lra. }
  destruct (pad_shift (bget b 0) (bget b 1) (n0 vp) n Hp Hn Hb) as (_ & _ & A & B). split; [exact A|]. split; [reflexivity|exact B].
Qed.
Print Assumptions C15_padded_rows.

(** before padding the first row sits on the box edge *)
Theorem C15_unpadded_first_row : forall b0 b1 nz, linspace b0 b1 nz 0 = b0.
Proof. exact linspace_first. Qed.
Print Assumptions C15_unpadded_first_row.

(** C16 *)
Theorem C16_graded_in_grid_steps : forall a grade elen a', int_grid a -> 0 <= elen -> 0 < grade ->
  (forall i j k, inr a i j k -> 0 <= av a i j k) ->
  limgrad_converged idR (Z.of_nat (n0 a)) (Z.of_nat (n1 a)) (Z.of_nat (n2 a)) elen grade max_sweeps (flattenF a) ->
  gradation a grade elen = SzOk a' ->
  forall i j k i' j' k', inr a i j k -> inr a i' j' k' -> adjacent (i, j, k) (i', j', k') ->
  Rabs (av a' i j k - av a' i' j' k') <= grade * elen + amin a * sqrt (1 / 10 ^ 9).
Proof. exact graded_after_gradation. Qed.
Print Assumptions C16_graded_in_grid_steps.

Theorem C16_x_gradient_exceeds_grade : forall ufilter, exists o b vp a4 vp4 b4,
  int_grid vp /\ 0 < o_hmin o <= o_hmax o /\ 0 < o_grade o /\ o_dt o = 0 /\
  get_sizing ufilter o b vp = SzOk (a4, vp4, b4) /\ inr a4 0 0 0 /\ inr a4 0 1 0 /\
  let dx := linspace (bget b4 2) (bget b4 3) (n1 a4) 1 - linspace (bget b4 2) (bget b4 3) (n1 a4) 0 in
  0 < dx /\ o_grade o * dx < Rabs (av a4 0%nat 1%nat 0%nat - av a4 0%nat 0%nat 0%nat).
Proof. exact x_gradient_exceeds. Qed.
Print Assumptions C16_x_gradient_exceeds_grade.

Example C16_case : limgrad_converged idR (Z.of_nat 2) (Z.of_nat 1) (Z.of_nat 1) 1 (1/10) max_sweeps [9/5; 3/2].
Proof.
  apply two_node_converges; lra.
Qed.

(** C18: [w] is the windowed variance of the velocity *)
Theorem C18_gradient_size_band : forall w grad, positive_shape w -> 0 < grad ->
  (forall i j k, inr w i j k -> 0 <= av w i j k) -> 0 < amax w ->
  exists s, gradient_of_variance w grad = SzOk s /\ shape_eq s w /\
    (forall i j k, inr w i j k -> grad / (11 / 10) <= av s i j k <= 10 * grad) /\
    (forall i j k, inr w i j k -> av w i j k = amin w -> av s i j k = 10 * grad).
Proof. exact gradient_band. Qed.
Print Assumptions C18_gradient_size_band.

(** constant velocity, any filter that keeps constant fields constant (a mean does) *)
Theorem C18_constant_model_has_no_size : forall ufilter vp c grad, positive_shape vp -> 0 < grad ->
  (forall i j k, inr vp i j k -> av vp i j k = c) ->
  (forall x d, (forall i j k, inr x i j k -> av x i j k = d) ->
     shape_eq (ufilter x) x /\ forall i j k, inr x i j k -> av (ufilter x) i j k = d) ->
  gradient_sizing ufilter vp grad = SzNonFinite.
Proof. exact gradient_constant_fails. Qed.
Print Assumptions C18_constant_model_has_no_size.

Example C18_case : positive_shape (col2 1 2) /\ (forall i j k, inr (col2 1 2) i j k -> 0 <= av (col2 1 2) i j k) /\ 0 < amax (col2 1 2).
Proof.
  split; [unfold positive_shape; cbn; lia|]. split.
  - intros i j k Hin. destruct (col2_inr _ _ _ _ _ Hin) as [[->| ->] _]; cbn; lra.
  - eapply Rlt_le_trans; [|apply (amax_ge (col2 1 2) 0 0 0); unfold inr; cbn; lia]. cbn. lra.
Qed.
