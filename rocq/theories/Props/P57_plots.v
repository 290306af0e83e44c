(** C122: what the plots show. *)
From Coq Require Import String.
From Coq Require Import Reals List ZArith Bool Arith Lia Lra.
From Flocq Require Import Core.
From Verif Require Import Model.Base Model.FastHJ Model.SDF Model.InitGrid Model.Sizing Model.Interp Model.Plot Spec.Grid Spec.Interp Proofs.ListAux Proofs.SDFBox Proofs.MeshAux Proofs.SizingArr Proofs.SizingMain Proofs.SizingMore Proofs.InitGridProofs Props.P20_sizefun.
Import ListNotations.
Local Open Scope R_scope.

Lemma every_in {A} (s : Z) (l m : list A) : (0 < s)%Z -> every s l = Ok m -> forall x d, In x m <-> exists i, (i * Z.to_nat s < length l)%nat /\ x = nth (i * Z.to_nat s) l d.
Proof.
  intros S E x d. unfold every in E. rewrite (proj2 (Z.eqb_neq s 0)), (proj2 (Z.ltb_ge s 0)) in E by lia. injection E as <-. set (n := Z.to_nat s). assert (0 < n)%nat as N by lia.
  rewrite in_map_iff. split.
  - intros ((k, y) & <- & I). apply filter_In in I. destruct I as (I & M). cbn [fst snd] in *. apply Nat.eqb_eq in M.
    apply (In_nth _ _ (0%nat, d)) in I. destruct I as (j & Lj & Ej). rewrite combine_length, seq_length in Lj. rewrite combine_nth in Ej by apply seq_length.
    rewrite seq_nth in Ej by lia. injection Ej as <- <-. cbn [Nat.add] in *. exists (j / n)%nat. assert (j = j / n * n)%nat as J by (pose proof (Nat.div_mod j n); lia). rewrite <- J. split; [lia|reflexivity].
  - intros (i & L & ->). exists ((i * n)%nat, nth (i * n) l d). split; [reflexivity|]. apply filter_In. split.
    + assert (E : nth (i * n) (combine (seq 0 (length l)) l) (0%nat, d) = ((i * n)%nat, nth (i * n) l d)) by (rewrite combine_nth by apply seq_length; rewrite seq_nth by lia; reflexivity).
      rewrite <- E. apply nth_In. rewrite combine_length, seq_length. lia.
    + cbn [fst]. apply Nat.eqb_eq, Nat.mod_mul. lia.
Qed.
Lemma arange_node lo hi k : (k < length (arange lo hi 50))%nat <-> lo + 50 * INR k < hi.
Proof.
  unfold arange. rewrite map_length, seq_length. destruct (Rle_lt_dec hi lo) as [L|L].
  - rewrite (n_nodes_none lo hi 50) by lra. pose proof (pos_INR k). split; [lia|lra].
  - pose proof (n_nodes_real lo hi 50 ltac:(lra) L) as (A & B). split; intros H.
    + pose proof (node_bounds lo hi 50 ltac:(lra) k H) as C. unfold InitGrid.node in C. destruct C as (_ & C). replace (lo + 50 * INR k) with (lo + INR k * 50) by ring. exact C.
    + apply INR_lt. assert ((hi - lo) / 50 * 50 = hi - lo) by field. nra.
Qed.
Lemma arange_nth lo hi k d : (k < length (arange lo hi 50))%nat -> nth k (arange lo hi 50) d = lo + 50 * INR k.
Proof.
  intros L. unfold arange in *. rewrite map_length, seq_length in L. rewrite (nth_map' _ _ _ d 0%nat) by (rewrite seq_length; exact L). rewrite seq_nth by exact L. unfold InitGrid.node. rewrite Nat.add_0_l. ring.
Qed.
(** plot_sizing_function on the first process, for a size function in 2D and a positive stride: the points drawn are those every
    50 units from the lower corner, with rows left out by the stride and the upper ends excluded; each is drawn with its size. *)
Theorem C122_points_drawn : forall z0 z1 x0 x1 eval stride filename, (0 < stride)%Z ->
  exists rows, plot_sizing_function 0 (PSize [z0; z1; x0; x1] eval) stride filename = Ok (rows, figure_for filename) /\
  forall x z v, (exists row, In row rows /\ In (x, z, v) row) <->
    exists i j : nat, z = z0 + 50 * (IZR stride * INR i) /\ z < z1 /\ x = x0 + 50 * INR j /\ x < x1 /\ v = eval [z; x].
Proof.
  intros z0 z1 x0 x1 eval stride filename S. unfold plot_sizing_function. cbn [Nat.eqb negb].
  destruct (every stride (map (plot_row eval (arange x0 x1 50)) (arange z0 z1 50))) as [rows|e] eqn:E; [|unfold every in E; rewrite (proj2 (Z.eqb_neq stride 0)), (proj2 (Z.ltb_ge stride 0)) in E by lia; discriminate].
  exists rows. split; [reflexivity|]. intros x z v. pose proof (every_in stride _ rows S E) as M.
  assert (ST : forall i, INR (i * Z.to_nat stride) = IZR stride * INR i) by (intros i; rewrite mult_INR, (INR_IZR_INZ (Z.to_nat stride)), Z2Nat.id by lia; ring).
  split.
  - intros (row & I & J). apply (M row []) in I. destruct I as (i & L & ->). rewrite map_length in L. rewrite (nth_map' _ _ _ [] 0) in J by exact L. rewrite arange_nth in J by exact L. apply arange_node in L.
    unfold plot_row in J. apply in_map_iff in J. destruct J as (y & J & Iy). injection J as <- <- <-. apply (In_nth _ _ 0) in Iy. destruct Iy as (j & Lj & <-). rewrite arange_nth by exact Lj. apply arange_node in Lj.
    exists i, j. rewrite ST in *. repeat split; assumption.
  - intros (i & j & -> & Lz & -> & Lx & ->). rewrite <- ST in Lz |- *. apply arange_node in Lz. apply arange_node in Lx.
    exists (plot_row eval (arange x0 x1 50) (z0 + 50 * INR (i * Z.to_nat stride))). split.
    + apply (M _ []). exists i. rewrite map_length. split; [exact Lz|]. rewrite (nth_map' _ _ _ [] 0) by exact Lz. rewrite arange_nth by exact Lz. reflexivity.
    + unfold plot_row. apply in_map_iff. exists (x0 + 50 * INR j). split; [reflexivity|]. rewrite <- (arange_nth x0 x1 j 0) by exact Lx. apply nth_In, Lx.
Qed.
Print Assumptions C122_points_drawn.

(** for a size function made by get_sizing_function (2D, no timestep, exact coordinates) the colours are sizes between hmin and hmax *)
Theorem C122_sizes_drawn : forall ufilter o b vp b4 f h stride filename,
  int_grid vp -> bget b 0 <= bget b 1 -> 0 <= o_hmin o <= o_hmax o -> (o_dt o = 0 \/ o_cr_max o = 0 \/ o_space_order o = 0) -> adim vp <> 3%nat ->
  size_function ufilter (fun x => x) o b vp = SzOk (b4, f, h) -> (0 < stride)%Z ->
  forall rows fig row x z v, plot_sizing_function 0 (PSize b4 f) stride filename = Ok (rows, fig) -> In row rows -> In (x, z, v) row ->
  o_hmin o <= v <= o_hmax o.
Proof.
  intros ufilter o b vp b4 f h stride filename HI HB HH HD HA HF S rows fig row x z v E I J.
  destruct (C83_in_the_box _ _ _ _ _ _ _ HI HB HH HD HF) as (K & _). specialize (K HA).
  assert (exists z0 z1 x0 x1, b4 = [z0; z1; x0; x1]) as (z0 & z1 & x0 & x1 & ->).
  { unfold plot_sizing_function in E. cbn [Nat.eqb negb] in E. destruct b4 as [|z0 [|z1 [|x0 [|x1 [|? ?]]]]]; try discriminate E. exists z0, z1, x0, x1. reflexivity. }
  destruct (C122_points_drawn z0 z1 x0 x1 f stride filename S) as (rows' & E' & M). rewrite E' in E. injection E as <- _.
  destruct (proj1 (M x z v) (ex_intro _ row (conj I J))) as (i & j & Ez & Lz & Ex & Lx & ->). cbn [bget nth] in K. pose proof (pos_INR i). pose proof (pos_INR j). pose proof (IZR_lt _ _ S).
  apply K; cbn; try nra.
Qed.
Print Assumptions C122_sizes_drawn.

(** A domain at most 50 units high and wide is drawn as one value, that of its lower corner. *)
Theorem C122_small_domains : forall z0 z1 x0 x1 eval filename, z0 < z1 <= z0 + 50 -> x0 < x1 <= x0 + 50 ->
  plot_sizing_function 0 (PSize [z0; z1; x0; x1] eval) 1 filename = Ok ([[(x0, z0, eval [z0; x0])]], figure_for filename).
Proof.
  assert (G : forall lo hi, lo < hi <= lo + 50 -> arange lo hi 50 = [lo]).
  { intros lo hi (A & B). assert (L : length (arange lo hi 50) = 1%nat).
    { destruct (length (arange lo hi 50)) as [|[|n]] eqn:E; [|reflexivity|].
      - assert (0 < length (arange lo hi 50))%nat by (apply arange_node; cbn; lra). lia.
      - assert (1 < length (arange lo hi 50))%nat as H by lia. apply arange_node in H. cbn in H. lra. }
    pose proof (arange_nth lo hi 0 0 ltac:(lia)) as N. destruct (arange lo hi 50) as [|y [|? ?]]; try discriminate L. cbn in N. f_equal. lra. }
  intros z0 z1 x0 x1 eval filename HZ HX. unfold plot_sizing_function. cbn [Nat.eqb negb]. rewrite (G z0 z1 HZ), (G x0 x1 HX). reflexivity.
Qed.
Print Assumptions C122_small_domains.

(** Refusals: anything but a size function, a box that is not 2D, a stride of 0; and every process but the first raises, whatever it
    is given, after the first has drawn. *)
Theorem C122_plot_fails : forall rank a stride filename,
  (exists e, plot_sizing_function rank a stride filename = Err e) <->
  rank <> 0%nat \/ a = POther \/ (exists b f, a = PSize b f /\ length b <> 4%nat) \/ stride = 0%Z.
Proof.
  intros rank a stride filename. unfold plot_sizing_function. destruct (Nat.eqb_spec rank 0) as [R|R]; cbn [negb].
  2: { split; [intros _; left; exact R|intros _; eexists; reflexivity]. }
  destruct a as [b f|]; [|split; [intros _; right; left; reflexivity|intros _; eexists; reflexivity]].
  assert (K : length b <> 4%nat -> exists e, match b with [z0; z1; x0; x1] => rbind (every stride (map (plot_row f (arange x0 x1 50)) (arange z0 z1 50))) (fun rows => Ok (rows, figure_for filename)) | _ => Err ValueError end = Err e).
  { intros N. destruct b as [|z0 [|z1 [|x0 [|x1 [|? ?]]]]]; try (eexists; reflexivity). exfalso. apply N. reflexivity. }
  split.
  - intros (e & E). destruct (Nat.eq_dec (length b) 4) as [L|L]; [|right; right; left; exists b, f; split; [reflexivity|exact L]].
    right. right. right. destruct b as [|z0 [|z1 [|x0 [|x1 [|? ?]]]]]; try discriminate L. unfold every in E. destruct (Z.eqb_spec stride 0); [assumption|].
    destruct (stride <? 0)%Z; discriminate E.
  - intros [H|[H|[(b' & f' & H & L)|H]]]; [contradiction|discriminate H| |].
    + injection H as <- <-. apply K, L.
    + destruct (Nat.eq_dec (length b) 4) as [L|L]; [|apply K, L]. destruct b as [|z0 [|z1 [|x0 [|x1 [|? ?]]]]]; try discriminate L. rewrite H. eexists. reflexivity.
Qed.
Print Assumptions C122_plot_fails.

(** show of a domain: exactly the sampled points whose value is between -0.01 and 0.01, all within 0.01 of the box; and never a file,
    whatever filename is given. *)
Theorem C122_show : forall d us filename, (forall u t, In u us -> In t u -> 0 <= t <= 1) ->
  snd (show d us filename) = OnScreen /\
  (forall x, In x (fst (show d us filename)) <-> (exists u, In u us /\ x = sample_point (d_bbox d) u) /\ - (1 / 100) < d_eval d x < 1 / 100) /\
  (forall x k, In x (fst (show d us filename)) -> (k < length x)%nat -> nth (2 * k) (d_bbox d) 0 <= nth (2 * k + 1) (d_bbox d) 0 ->
     nth (2 * k) (d_bbox d) 0 - 1 / 100 <= nth k x 0 <= nth (2 * k + 1) (d_bbox d) 0 + 1 / 100).
Proof.
  intros d us filename U. split; [reflexivity|]. cbn [show fst]. split.
  - intros x. rewrite filter_In, in_map_iff, andb_true_iff. unfold Rgtb. rewrite !Rltb_true. split.
    + intros ((u & <- & I) & H). split; [exists u; split; [exact I|reflexivity]|exact H].
    + intros ((u & I & ->) & H). split; [exists u; split; [reflexivity|exact I]|exact H].
  - intros x k I. apply filter_In in I. destruct I as (I & _). apply in_map_iff in I. destruct I as (u & <- & I). specialize (U u). assert (V : forall t, In t u -> 0 <= t <= 1) by (intros t; apply U, I).
    clear U I. revert k u V. generalize (d_bbox d). fix IH 1. intros b k u V L O. destruct b as [|lo [|hi b]]; [cbn in L; lia|cbn in L; lia|]. destruct u as [|t u]; [cbn in L; lia|].
    destruct k as [|k].
    + cbn in O |- *. pose proof (V t (or_introl eq_refl)). nra.
    + cbn [sample_point length] in L. replace (2 * S k)%nat with (S (S (2 * k))) in * by lia. cbn [nth Nat.add sample_point] in O |- *. replace (2 * k + 1)%nat with (2 * k + 1)%nat in * by lia.
      apply (IH b k u); [intros s I; apply V; right; exact I|lia|exact O].
Qed.
Print Assumptions C122_show.

(** a disk, three samples, one of them near its edge *)
Example C122_case : fst (show (Disk 0 0 1 no_manip) [[1 / 2; 1 / 2]; [1 / 202; 1 / 2]; [1 / 2; 1]] (Some "disk.png"%string)) <> [] /\
  (exists rows, plot_sizing_function 0 (PSize [0; 120; 0; 80] (fun q => nth 0 q 0)) 2 None = Ok (rows, OnScreen) /\ In (50, 100, 100) (concat rows)) /\
  (exists e, plot_sizing_function 1 (PSize [0; 120; 0; 80] (fun q => nth 0 q 0)) 2 None = Err e).
Proof.
  split; [|split].
  - assert (I : In (sample_point [0 - 1; 0 + 1; 0 - 1; 0 + 1] [1 / 202; 1 / 2]) (fst (show (Disk 0 0 1 no_manip) [[1 / 2; 1 / 2]; [1 / 202; 1 / 2]; [1 / 2; 1]] (Some "disk.png"%string)))).
    { assert (B : d_bbox (Disk 0 0 1 no_manip) = [0 - 1; 0 + 1; 0 - 1; 0 + 1]) by apply no_manip_bbox.
      apply (C122_show (Disk 0 0 1 no_manip)).
      - intros u t Iu It. cbn in Iu. decompose [or] Iu; subst; cbn in It; decompose [or] It; subst; lra || contradiction.
      - split; [exists [1 / 202; 1 / 2]; split; [cbn; auto|rewrite B; reflexivity]|]. unfold Disk. rewrite no_manip_eval. cbn [sample_point ddisk].
        assert (V : sqrt ((0 - 1 - 1 / 100 + (0 + 1 + 1 / 100 - (0 - 1 - 1 / 100)) * (1 / 202) - 0) ^ 2 + (0 - 1 - 1 / 100 + (0 + 1 + 1 / 100 - (0 - 1 - 1 / 100)) * (1 / 2) - 0) ^ 2) = 1).
        { transitivity (sqrt 1); [f_equal; field|apply sqrt_1]. } rewrite V. lra. }
    intros E. rewrite E in I. destruct I.
  - destruct (C122_points_drawn 0 120 0 80 (fun q => nth 0 q 0) 2 None ltac:(lia)) as (rows & E & M). exists rows. split; [exact E|]. apply in_concat. apply (M 50 100 100).
    exists 1%nat, 1%nat. cbn [nth INR]. repeat split; try lra.
  - apply C122_plot_fails. left. discriminate.
Qed.
