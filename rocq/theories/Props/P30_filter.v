(** C94-C96: the size function from a velocity model: sizes from the velocity gradient, accepted arguments, several processes. *)
From Coq Require Import List ZArith Reals Bool Lia Lra.
From Verif Require Import Model.Base Model.FastHJ Model.Sizing Model.UFilter Model.Interp Model.MPI Model.Process Model.Parallel Model.SizingRanks
  Spec.Velocity Proofs.ListAux Proofs.SizingArr Proofs.SizingMain Proofs.SizingMore Proofs.UFilterProofs Proofs.SizingTotal
  Proofs.Choreo Proofs.ProcessProofs Proofs.ParallelProofs Proofs.StarveProofs Props.P02_sizing Props.P20_sizefun.
Import ListNotations.
Local Open Scope R_scope.

(** C94: [windows st vp] are the numbers of samples of the moving average along the axes *)
Theorem C94_gradient_sizes : forall st vp grad, (0 < n0 vp)%nat -> (0 < n1 vp)%nat -> (0 < n2 vp)%nat -> 0 < grad -> change_seen (windows st vp) vp ->
  exists s, gradient_sizing (uniform_filter (windows st vp)) vp grad = SzOk s /\ (n0 s, n1 s, n2 s) = (n0 vp, n1 vp, n2 vp) /\
    (forall i j k, has vp i j k -> grad / (11 / 10) <= av s i j k <= 10 * grad) /\
    (forall i j k c, has vp i j k -> (forall i' j' k', has vp i' j' k' -> within_window (windows st vp) i j k i' j' k' -> av vp i' j' k' = c) -> av s i j k = 10 * grad).
Proof.
  intros st vp grad N0 N1 N2 G C. destruct (gradient_sizes (windows st vp) vp grad) as (s & E & (_ & S0 & S1 & S2) & B & T); [repeat split; assumption|exact G|exact C|].
  exists s. split; [exact E|]. split; [congruence|]. split; [exact B|exact T].
Qed.
Print Assumptions C94_gradient_sizes.
(** the moving average of a line: w samples from i - w/2 on, of the line f continued on both sides by mirroring it, the end sample included *)
Definition mirrored (n : nat) (f : nat -> R) (g : Z -> R) : Prop :=
  (forall i, (i < n)%nat -> g (Z.of_nat i) = f i) /\ (forall z, g (-1 - z)%Z = g z) /\ (forall z, g (z + 2 * Z.of_nat n)%Z = g z).
Theorem C94_mirrored_at_the_ends : forall w n f g i, (0 < n)%nat -> mirrored n f g ->
  mean_line w n f i = fold_right Rplus 0 (map (fun j => g (Z.of_nat i - Z.of_nat (w / 2) + Z.of_nat j)%Z) (seq 0 w)) / INR w.
Proof.
  intros w n f g i N (M1 & M2 & M3). unfold mean_line. do 2 f_equal. apply map_ext. intro j. set (z := (_ + _)%Z). clearbody z.
  assert (MK : forall (k : Z) u, (0 <= k)%Z -> g (u + k * (2 * Z.of_nat n))%Z = g u).
  { intros k u K. revert u. pattern k. apply natlike_ind; [intro u; f_equal; lia|intros x X IH u|exact K].
    replace (u + Z.succ x * (2 * Z.of_nat n))%Z with ((u + x * (2 * Z.of_nat n)) + 2 * Z.of_nat n)%Z by lia. rewrite M3. apply IH. }
  assert (MZ : g z = g (z mod (2 * Z.of_nat n))%Z).
  { pose proof (Z.div_mod z (2 * Z.of_nat n) ltac:(lia)) as Ez. set (q := (z / (2 * Z.of_nat n))%Z) in *. set (m := (z mod (2 * Z.of_nat n))%Z) in *. clearbody q m.
    destruct (Z.le_gt_cases 0 q) as [Q | Q].
    - replace z with (m + q * (2 * Z.of_nat n))%Z by lia. apply MK. exact Q.
    - replace m with (z + (- q) * (2 * Z.of_nat n))%Z by lia. symmetry. apply MK. lia. }
  rewrite MZ. pose proof (Z.mod_pos_bound z (2 * Z.of_nat n) ltac:(lia)) as B. unfold reflect. set (m := (z mod (2 * Z.of_nat n))%Z) in *.
  destruct (Nat.ltb_spec (Z.to_nat m) n) as [L | L].
  - rewrite <- M1 by exact L. f_equal. lia.
  - rewrite <- M1 by lia. rewrite <- (M2 m), <- (M3 (-1 - m)%Z). f_equal. lia.
Qed.
Print Assumptions C94_mirrored_at_the_ends.
Theorem C94_no_change_no_sizes : forall st vp grad, (0 < n0 vp)%nat -> (0 < n1 vp)%nat -> (0 < n2 vp)%nat -> 0 < grad ->
  (gradient_sizing (uniform_filter (windows st vp)) vp grad = SzNonFinite <-> ~ change_seen (windows st vp) vp).
Proof. intros st vp grad N0 N1 N2 G. apply gradient_sizes_fail; [repeat split; assumption|exact G]. Qed.
Print Assumptions C94_no_change_no_sizes.
(** a stencil_size below 2 averages nothing: grad can never be used *)
Theorem C94_small_stencil : forall s vp grad, (0 < n0 vp)%nat -> (0 < n1 vp)%nat -> (0 < n2 vp)%nat -> 0 < grad -> s < 2 ->
  gradient_sizing (uniform_filter (windows (Scalar s) vp)) vp grad = SzNonFinite.
Proof.
  intros s vp grad N0 N1 N2 G L. apply (C94_no_change_no_sizes (Scalar s) vp grad N0 N1 N2 G). intros (ax & _ & B & _). cbn [windows] in B.
  assert (forall n k, nth k (repeat s n) 0 < 2) as H. { induction n as [|n IH]; intros [|k]; cbn; try lra; auto. }
  specialize (H (adim vp) ax). lra.
Qed.
Print Assumptions C94_small_stencil.
Lemma col2_varies a c : a <> c -> varies 0 (col2 a c).
Proof.
  intros N. exists 0%nat, 0%nat, 0%nat, 1%nat, 0%nat, 0%nat. unfold has. cbn. repeat split; try lia; try exact N.
Qed.
(** three samples 1, 2, 3 as seen from outside: 3 3 2 1 | 1 2 3 | 3 2 1 ... *)
Example C94_mirror_case : mirrored 3 (fun i => INR i + 1) (fun z => INR (reflect 3 z) + 1) /\ map (reflect 3) [-3; -2; -1; 0; 1; 2; 3; 4; 5]%Z = [2; 1; 0; 0; 1; 2; 2; 1; 0]%nat.
Proof.
  split; [|reflexivity]. unfold mirrored. split; [|split].
  - intros i L. rewrite reflect_in by exact L. reflexivity.
  - intro z. do 2 f_equal. unfold reflect. change (2 * Z.of_nat 3)%Z with 6%Z. pose proof (Z.mod_pos_bound z 6 ltac:(lia)).
    assert ((-1 - z) mod 6 = 5 - z mod 6)%Z as ->. { symmetry. apply (Z.mod_unique _ _ (-1 - z / 6)); [lia|]. pose proof (Z.div_mod z 6 ltac:(lia)). lia. }
    destruct (Nat.ltb_spec (Z.to_nat (5 - z mod 6)) 3), (Nat.ltb_spec (Z.to_nat (z mod 6)) 3); lia.
  - intro z. do 2 f_equal. unfold reflect. change (2 * Z.of_nat 3)%Z with (1 * 6)%Z. rewrite Z_mod_plus_full. reflexivity.
Qed.
Example C94_case : change_seen (windows (Scalar 10) (col2 1500 3000)) (col2 1500 3000) /\ 0 < (30 : R) /\ ~ change_seen (windows (Scalar 10) (col2 1500 1500)) (col2 1500 1500).
Proof.
  split; [exists 0%nat; split; [lia|]; split; [cbn; lra|]; apply col2_varies; lra|]. split; [lra|].
  intros (ax & _ & _ & i & j & k & i' & j' & k' & H1 & H2 & _ & _ & _ & N). apply N.
  destruct (col2_inr _ _ _ _ _ H1) as [[-> | ->] _]; destruct (col2_inr _ _ _ _ _ H2) as [[-> | ->] _]; reflexivity.
Qed.

(** C95: [vp1] is the array in m/s with water filled in (when the water option is usable) *)
Theorem C95_accepted_calls : forall win o b vp vp1, int_grid vp -> (length b = 4 \/ length b = 6)%nat -> (0 < adim vp)%nat ->
  bget b 0 <= bget b 1 -> 0 < o_hmin o -> 0 < o_hmax o ->
  ((has_water o vp -> exists x, o_vp_water o = Some x /\ 1300 <= x <= 1800) -> prepare_vp o vp = SzOk vp1) ->
  ((exists r, get_sizing (uniform_filter win) o b vp = SzOk r) <-> acceptable win o vp vp1) /\
  (~ acceptable win o vp vp1 -> get_sizing (uniform_filter win) o b vp = SzErr ValueError \/ get_sizing (uniform_filter win) o b vp = SzNonFinite).
Proof.
  intros win o b vp vp1 G B D E Hm Hx EP. destruct (sizing_total win o b vp G D B E Hm Hx vp1 EP) as [T1 T2]. split; [split|exact T2].
  - intros [r Er]. destruct (Classical_Prop.classic (acceptable win o vp vp1)) as [A|A]; [exact A|]. exfalso. exact (fails_not_ok _ r (T2 A) Er).
  - exact T1.
Qed.
Print Assumptions C95_accepted_calls.
(** exact coordinates: once the sizes are there, so is the function *)
Theorem C95_function_built : forall ufilter o b vp r, (2 <= n0 vp)%nat -> (2 <= n1 vp)%nat -> bget b 0 < bget b 1 -> bget b 2 < bget b 3 ->
  (adim vp = 3%nat -> (2 <= n2 vp)%nat /\ bget b 4 < bget b 5) ->
  get_sizing ufilter o b vp = SzOk r -> exists b4 f, size_function ufilter (fun x => x) o b vp = SzOk (b4, f, o_hmin o).
Proof.
  intros ufilter o b vp [[a4 vp4] b4] U0 U1 U2 U3 U4 E. destruct (interpolant_total ufilter o b vp a4 vp4 b4) as [f F]; [repeat split; try assumption; apply U4; assumption|exact E|].
  exists b4, f. unfold size_function. rewrite E. cbn [sbind]. rewrite F. reflexivity.
Qed.
Print Assumptions C95_function_built.
Theorem C95_box : forall ufilter o b vp, (length b <> 4)%nat -> (length b <> 6)%nat -> get_sizing ufilter o b vp = SzErr ValueError.
Proof. exact wrong_box. Qed.
Print Assumptions C95_box.
(** limits the wrong way round are accepted: all sizes are hmax, below the declared minimum *)
Theorem C95_limits_not_compared : forall ufilter o b vp a4 vp4 b4, int_grid vp -> bget b 0 <= bget b 1 -> 0 < o_hmax o < o_hmin o ->
  o_cr_max o = 0 \/ o_dt o = 0 \/ o_space_order o = 0 ->
  get_sizing ufilter o b vp = SzOk (a4, vp4, b4) -> forall i j k, has a4 i j k -> av a4 i j k = o_hmax o.
Proof. exact swapped_limits. Qed.
Print Assumptions C95_limits_not_compared.
(** the defaults: with no option given every cell has 150 m; with only wl given a cell has v / (2 wl) metres, but at least 150 and at most 10000 *)
Definition only_wl (w : R) : opts := let d := default_opts in
  mkOpts (o_vp_water d) (o_hmin d) (o_hmax d) w (o_freq d) (o_grad d) (o_grade d) (o_space_order d) (o_dt d) (o_cr_max d) (o_pad_style d) (o_domain_pad d) (o_units d).
Theorem C95_defaults : forall ufilter w b vp, (length b = 4 \/ length b = 6)%nat -> (forall i j k, has vp i j k -> 1 / 1000 <= av vp i j k) ->
  (exists a, get_sizing ufilter default_opts b vp = SzOk (a, vp, b) /\ (n0 a, n1 a, n2 a) = (n0 vp, n1 vp, n2 vp) /\ forall i j k, av a i j k = 150) /\
  (0 < w -> exists a, get_sizing ufilter (only_wl w) b vp = SzOk (a, vp, b) /\ (n0 a, n1 a, n2 a) = (n0 vp, n1 vp, n2 vp) /\
     forall i j k, av a i j k = Rmin 10000 (Rmax 150 (av vp i j k / (2 * w)))).
Proof.
  intros ufilter w b vp B V.
  assert (P : forall w', prepare_vp (only_wl w') vp = SzOk vp).
  { intros w'. unfold prepare_vp, only_wl, default_opts; cbn [o_units o_vp_water convert_units]. apply water_row0_kept. intros i j k Hi _. apply V. exact Hi. }
  assert (D : exists d, bbox_dim b = Ok d) by (unfold bbox_dim; destruct B as [-> | ->]; cbn [Nat.eqb]; eexists; reflexivity).
  destruct D as [d D].
  assert (T : forall w' a0, initial_size ufilter (only_wl w') vp = SzOk a0 -> get_sizing ufilter (only_wl w') b vp = SzOk (clamp 150 10000 a0, vp, b)).
  { intros w' a0 E. unfold get_sizing. rewrite P. cbn [sbind]. rewrite D, E. cbn [sbind]. unfold only_wl, default_opts; cbn [o_hmin o_hmax o_cr_max o_dt o_space_order o_grade o_pad_style o_domain_pad].
    unfold courant. rewrite (proj2 (Reqb_true 0 0) eq_refl), orb_true_r. cbn [orb sbind]. unfold gradation. rewrite (proj2 (Reqb_true 0 0) eq_refl). cbn [sbind].
    unfold domain_pad, Rgtb. rewrite (proj2 (Rltb_false 0 0)) by lra. reflexivity. }
  split.
  - exists (clamp 150 10000 (amap (fun _ => 150) vp)). split; [|split; [reflexivity|]].
    + apply (T 0). unfold initial_size, only_wl, default_opts; cbn [o_wl o_grad o_hmin]. unfold Rgtb. rewrite (proj2 (Rltb_false 0 0)) by lra. reflexivity.
    + intros i j k. unfold clamp, amap; cbn [av]. unfold Rgtb. rewrite (proj2 (Rltb_false 150 150)), (proj2 (Rltb_false 10000 150)) by lra. reflexivity.
  - intros W. eexists. split; [|split].
    + apply T. unfold initial_size, only_wl, default_opts; cbn [o_wl o_grad o_freq]. unfold Rgtb. rewrite (proj2 (Rltb_true 0 w) W). cbn [orb].
      unfold wavelength_sizing. rewrite (proj2 (Reqb_false w 0)), (proj2 (Rltb_false w 0)), (proj2 (Rltb_false 2 0)), (proj2 (Reqb_false (2 * w) 0)) by lra. cbn [sbind].
      unfold gradient_sizing. rewrite (proj2 (Reqb_true 0 0) eq_refl). cbn [sbind]. reflexivity.
    + reflexivity.
    + intros i j k. unfold clamp, amap, amap2; cbn [av]. set (x := av vp i j k / (2 * w)). clearbody x.
      assert (C1 : forall y, (if Rltb y 150 then 150 else y) = Rmax 150 y).
      { intros y. destruct (Rltb y 150) eqn:L; [apply Rltb_true in L|apply Rltb_false in L]; unfold Rmax; destruct (Rle_dec 150 y); lra. }
      assert (C2 : forall y, (if Rgtb y 10000 then 10000 else y) = Rmin 10000 y).
      { intros y. unfold Rgtb. destruct (Rltb 10000 y) eqn:L; [apply Rltb_true in L|apply Rltb_false in L]; unfold Rmin; destruct (Rle_dec 10000 y); lra. }
      rewrite C1, C2. unfold Rmin, Rmax. destruct (Rle_dec x 99999); destruct (Rle_dec 150 x); repeat match goal with |- context [Rle_dec ?a ?b] => destruct (Rle_dec a b) end; lra.
Qed.
Print Assumptions C95_defaults.
Definition c95_opts (wl grad dt : R) (lo hi : R) : opts := mkOpts (Some 1500) lo hi wl 5 grad (15/100) 1 dt 1 PadEdge 0 MS.
Lemma c95_prepare wl grad dt lo hi : prepare_vp (c95_opts wl grad dt lo hi) (sq2 1000 1100) = SzOk (sq2 1000 1100).
Proof.
  unfold prepare_vp, c95_opts; cbn [o_units o_vp_water convert_units]. apply water_row0_kept. intros i j k Hi _. unfold inr, sq2 in *; cbn [n0 n1 n2 av] in *.
  destruct j as [|[|j]]; try lia; cbn; lra.
Qed.
Lemma c95_no_water wl grad dt lo hi : ~ has_water (c95_opts wl grad dt lo hi) (sq2 1000 1100).
Proof. intros (i & j & k & Hi & _ & L). unfold c95_opts in L; cbn [o_units scaled] in L. unfold has, sq2 in *; cbn [n0 n1 n2 av] in *. destruct j as [|[|j]]; try lia; cbn in L; lra. Qed.
(** wavelength, gradient and time step together are accepted; a negative time step is not; hmin 2000 and hmax 100 are *)
Example C95_case : (exists b4 f h, size_function (uniform_filter (windows (Scalar 2) (sq2 1000 1100))) (fun x => x) (c95_opts 10 30 (1/1000) 10 2000) c16_box (sq2 1000 1100) = SzOk (b4, f, h)) /\
  ~ acceptable (windows (Scalar 2) (sq2 1000 1100)) (c95_opts 10 30 (-1) 10 2000) (sq2 1000 1100) (sq2 1000 1100) /\
  exists r, get_sizing (uniform_filter (windows (Scalar 2) (sq2 1000 1100))) (c95_opts 10 30 0 2000 100) c16_box (sq2 1000 1100) = SzOk r.
Proof.
  assert (int_grid (sq2 1000 1100)) as G by (unfold int_grid; cbn; lia).
  assert (change_seen (windows (Scalar 2) (sq2 1000 1100)) (sq2 1000 1100)) as CS.
  { exists 1%nat. split; [lia|]. split; [cbn; lra|]. exists 0%nat, 0%nat, 0%nat, 0%nat, 1%nat, 0%nat. unfold has; cbn. repeat split; try lia. lra. }
  assert (forall dt lo hi, 0 <= dt -> acceptable (windows (Scalar 2) (sq2 1000 1100)) (c95_opts 10 30 dt lo hi) (sq2 1000 1100) (sq2 1000 1100)) as AC.
  { intros dt lo hi L. unfold acceptable. split; [intros W; destruct (c95_no_water _ _ _ _ _ W)|]. unfold c95_opts; cbn [o_wl o_grad o_freq o_cr_max o_dt o_space_order o_grade o_domain_pad o_pad_style].
    split; [intros _; repeat split; try lra; intros _; exact CS|]. split; [destruct L as [L|L]; [right; right; right; lra|right; left; lra]|]. split; [lra|]. split; [lra|]. intros; discriminate. }
  assert (forall dt lo hi, 0 <= dt -> 0 < lo -> 0 < hi -> exists r, get_sizing (uniform_filter (windows (Scalar 2) (sq2 1000 1100))) (c95_opts 10 30 dt lo hi) c16_box (sq2 1000 1100) = SzOk r) as OK.
  { intros dt lo hi L1 L2 L3. apply (C95_accepted_calls _ _ c16_box _ (sq2 1000 1100) G); [left; reflexivity|cbn; lia|unfold c16_box, bget; cbn; lra|exact L2|exact L3|intros _; apply c95_prepare|apply AC, L1]. }
  split; [|split].
  - destruct (OK (1/1000) 10 2000) as [r Er]; try lra. destruct (C95_function_built _ _ c16_box (sq2 1000 1100) _ ltac:(cbn; lia) ltac:(cbn; lia) ltac:(unfold c16_box, bget; cbn; lra) ltac:(unfold c16_box, bget; cbn; lra) ltac:(intros E3; discriminate) Er) as (b4 & f & F).
    exists b4, f, 10. exact F.
  - intros (_ & _ & C & _). unfold c95_opts in C; cbn [o_cr_max o_dt o_space_order] in C. lra.
  - apply OK; lra.
Qed.

(** C96 *)
Section Ranks.
Variables (ufilter : garr -> garr) (rnd : R -> R) (o : opts) (b : bbox) (vp : garr) (size : nat).
Hypothesis S2 : (2 <= size)%nat.
Notation P known := (sizing_ranks ufilter rnd known o b vp size).
Lemma ranks_choreo b4 f h : size_function ufilter rnd o b vp = SzOk (b4, f, h) ->
  let ch := star_out coll 0 (others size 0) (fun _ => MPts [b4]) in
  (forall x, In x ch -> src _ x <> dst _ x) /\ length ch = (size - 1)%nat /\
  forall r, follows _ _ (P true r) (project _ ch r) (flat_map (to _ r) ch)
    (if (r <? size)%nat then Some (Ok (if (r =? 0)%nat then (b4, f, h) else (b4, fun _ => 1, o_hmin o))) else None).
Proof.
  intros E ch. assert (inside size ch) as IN. { apply star_out_inside; [lia|]. intros q Hq. exact (proj1 (others_in size S2 0 q) Hq). }
  split; [intros x Hx; apply (IN x Hx)|]. split; [unfold ch; rewrite star_len_out; apply others_len; lia|]. intros r. unfold sizing_ranks.
  destruct (Nat.ltb_spec r size) as [L|L]; [|destruct (inside_prj size ch r IN L) as [-> ->]; constructor].
  pose proof (plays_bcast size S2 0 (fun r => if (r =? 0)%nat then MPts [b4] else MPts [b]) ltac:(lia) r L) as PB. cbn [Nat.eqb] in PB. fold ch in PB.
  unfold sizing_rank. rewrite (proj2 (Nat.ltb_lt 1 size)) by lia. destruct (Nat.eqb_spec r 0) as [-> |N].
  - unfold rank0_sizing. rewrite E. rewrite pbind_assoc. eapply follows_last; [exact PB|reflexivity].
  - rewrite pbind_assoc. eapply follows_last; [exact PB|reflexivity].
Qed.
End Ranks.
Theorem C96_all_ranks_get_the_box : forall ufilter rnd o b vp size b4 f h, (2 <= size)%nat -> size_function ufilter rnd o b vp = SzOk (b4, f, h) ->
  forall n st, prun (@anything) n (pstart (sizing_ranks ufilter rnd true o b vp size)) st ->
    (n <= 2 * (size - 1))%nat /\ (~ all_ended st -> exists st', pstep false st st') /\
    (all_ended st -> (forall p q, pc st p q = []) /\ ended st 0 (Some (Ok (b4, f, h))) /\ forall r, (0 < r < size)%nat -> ended st r (Some (Ok (b4, fun _ => 1, h)))).
Proof.
  intros ufilter rnd o b vp size b4 f h S2 E n st RN. destruct (ranks_choreo ufilter rnd o b vp size S2 b4 f h E) as (ND & EL & FO).
  destruct (proc_choreography _ _ _ _ _ ND FO _ _ _ RN) as (L & PR & D). rewrite EL in L. split; [exact L|]. split; [exact PR|]. intros A. destruct (D A) as [C V]. split; [exact C|].
  assert (h = o_hmin o) as -> by (unfold size_function in E; apply sbind_ok in E; destruct E as ([[? ?] ?] & _ & E); apply sbind_ok in E; destruct E as (? & _ & E); injection E; auto). split.
  - pose proof (V 0%nat) as H. rewrite (proj2 (Nat.ltb_lt 0 size)) in H by lia. exact H.
  - intros r Lr. pose proof (V r) as H. rewrite (proj2 (Nat.ltb_lt r size)) in H by lia. destruct (Nat.eqb_spec r 0); [lia|]. exact H.
Qed.
Print Assumptions C96_all_ranks_get_the_box.
Theorem C96_rank0_error_hangs_the_others : forall ufilter rnd known o b vp size e, (2 <= size)%nat -> rank0_sizing ufilter rnd known o b vp = SzErr e ->
  sizing_ranks ufilter rnd known o b vp size 0 = Done (Some (Err e)) /\
  forall n st r a, (0 < r < size)%nat -> prun (@anything) n (pstart (sizing_ranks ufilter rnd known o b vp size)) st -> ~ ended st r a.
Proof.
  intros ufilter rnd known o b vp size e S2 E.
  assert (sizing_ranks ufilter rnd known o b vp size 0 = Done (Some (Err e))) as E0.
  { unfold sizing_ranks, sizing_rank. rewrite (proj2 (Nat.ltb_lt 0 size)) by lia. cbn [Nat.eqb]. rewrite E. reflexivity. }
  split; [exact E0|]. intros n st r a L RN. destruct (prun_bruns _ _ _ _ _ _ RN) as (k & _ & B). refine (starved_once _ _ _ r 0 _ _ _ _ B a); [lia|].
  exists 1%nat, 0%nat. cbn [pstart pp pc length]. rewrite E0. split; [|split; [exact I|lia]].
  unfold sizing_ranks, sizing_rank. rewrite (proj2 (Nat.ltb_lt r size)), (proj2 (Nat.ltb_lt 1 size)) by lia. destruct (Nat.eqb_spec r 0); [lia|].
  apply needs_bind0, needs_bind0. unfold bcast_p. destruct (Nat.eqb_spec r 0); [lia|]. rewrite needs_eq. intros m. cbn. exact I.
Qed.
Print Assumptions C96_rank0_error_hangs_the_others.
(** an unrecognised keyword is such an error *)
Theorem C96_unknown_keyword : forall ufilter rnd o b vp, rank0_sizing ufilter rnd false o b vp = SzErr ValueError.
Proof. reflexivity. Qed.
Print Assumptions C96_unknown_keyword.
Example C96_case : (exists b4 f h, rank0_sizing (fun a => a) (fun x => x) true c16_opts c16_box (sq2 1000 1100) = SzOk (b4, f, h)) /\
  rank0_sizing (fun a => a) (fun x => x) true c16_opts [0; 1] (sq2 1000 1100) = SzErr ValueError.
Proof.
  split.
  - destruct (c16_size_function (fun a => a)) as (f & H1 & _). eexists _, f, _. exact H1.
  - unfold rank0_sizing, size_function. rewrite wrong_box by (cbn; lia). reflexivity.
Qed.
