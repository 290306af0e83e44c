(** C87: reading SEG-Y files and writing velocity models.  [rnd]: conversion to float32 (arbitrary). *)
From Coq Require Import String List ZArith Reals Lia Lra Bool.
From Verif Require Import Model.Base Model.FastHJ Model.ReadBin Model.Sizing Model.VelocityIO Spec.Grid
  Proofs.ReadBinProofs Proofs.ListAux Proofs.GridIndex Proofs.Limgrad Proofs.SizingArr Proofs.SizingMain Proofs.SizingMore.
Import ListNotations.
Local Open Scope R_scope.

(** the array has the given extents *)
Definition has_shape (a : garr) (dim nz nx ny : nat) : Prop := adim a = dim /\ n0 a = nz /\ n1 a = nx /\ n2 a = ny.

(** A SEG-Y file: sample q of trace j (counted from the surface) is in row nz-1-q, column j: the depth axis points upwards. *)
Theorem C87_segy_layout : forall asraw name nz traces ro, ends_with ".segy" name = true ->
  exists vp, read_velocity_model asraw name (SegyFile nz traces) ro = Ok vp /\ has_shape vp 2 nz (length traces) 1 /\
    (forall q j, (q < nz)%nat -> (j < length traces)%nat -> av vp (nz - 1 - q) j 0 = nth q (nth j traces []) 0) /\
    forall i j, (i < nz)%nat -> (j < length traces)%nat -> av vp i j 0 = nth (nz - 1 - i) (nth j traces []) 0.
Proof.
  intros asraw name nz traces ro E. unfold read_velocity_model. rewrite E. eexists. split; [reflexivity|]. split; [repeat split|].
  split; [|reflexivity]. intros q j Hq Hj. cbn [read_segy av]. f_equal. lia.
Qed.
Print Assumptions C87_segy_layout.

(** Only names ending in exactly ".segy" are read as SEG-Y; anything else (".sgy", ".SEGY") is read as raw samples, which fails
    unless the three extents are given. *)
Theorem C87_extension_decides : forall asraw name f ro, ends_with ".segy" name = false ->
  (r_nz ro = None \/ r_nx ro = None \/ r_ny ro = None) -> read_velocity_model asraw name f ro = Err ValueError.
Proof.
  intros asraw name f ro E H. unfold read_velocity_model. rewrite E. unfold read_bin.
  destruct (r_nz ro), (r_nx ro), (r_ny ro); try reflexivity. destruct H as [H | [H | H]]; discriminate.
Qed.
Print Assumptions C87_extension_decides.
Theorem C87_raw_layout : forall asraw name samples ro nz nx ny, ends_with ".segy" name = false ->
  r_nz ro = Some nz -> r_nx ro = Some nx -> r_ny ro = Some ny -> forall vp, read_velocity_model asraw name (RawFile samples) ro = Ok vp ->
  has_shape vp 3 nz nx ny /\ length samples = (nz * nx * ny)%nat /\
  (r_axes ro = [0; 1; 2]%nat -> r_sort ro = OrdF -> forall i j k, (i < nz)%nat -> (j < nx)%nat -> (k < ny)%nat ->
     av vp i j k = nth ((nz - 1 - i) + nz * (j + nx * k))%nat samples 0).
Proof.
  intros asraw name samples ro nz nx ny E E0 E1 E2 vp H. unfold read_velocity_model in H. rewrite E, E0, E1, E2 in H.
  destruct (read_bin 0 samples (r_order_ok ro) (Some nz) (Some nx) (Some ny) (r_axes ro) (r_sort ro)) as [[sh g]|e] eqn:EB; [|discriminate].
  injection H as <-. unfold read_bin in EB. destruct (r_order_ok ro); [|discriminate]. cbn [negb] in EB.
  destruct (Nat.eqb_spec (length samples) (nz * nx * ny)) as [EL|]; [|discriminate]. cbn [negb] in EB.
  destruct (is_perm3 (r_axes ro)) eqn:EP; [|discriminate]. cbn [negb] in EB. injection EB as <- <-.
  assert (result_shape (r_axes ro) nz nx ny = [nz; nx; ny]) as ES.
  { exact (result_shape_perm _ nz nx ny EP). }
  rewrite ES. cbn [nth]. split; [repeat split|]. split; [exact EL|]. intros EA EO i j k Hi Hj Hk. cbn [av]. rewrite EA, EO. reflexivity.
Qed.
Print Assumptions C87_raw_layout.

(** ---- write_velocity_model ---- *)
Lemma write_inv rnd asraw name f ofname w h : write_velocity_model rnd asraw 0 name f ofname w = SzOk (Some h) ->
  exists vp vp', read_velocity_model asraw name f (w_read w) = Ok vp /\
   h = mkHdf5 (String.append (match ofname with Some n => n | None => name end) ".hdf5") (amap rnd vp') "m/s" /\
   ((w_domain_pad w <= 0 /\ vp' = vp) \/
    (0 < w_domain_pad w /\ exists b a' b', w_bbox w = Some b /\ domain_pad vp vp b (w_pad_style w) (w_domain_pad w) = SzOk (a', vp', b'))).
Proof.
  unfold write_velocity_model. cbn [Nat.eqb]. destruct (read_velocity_model asraw name f (w_read w)) as [vp|e]; [|discriminate]. unfold Rgtb.
  intros H. apply sbind_ok in H. destruct H as (vp' & H1 & H2). injection H2 as <-. exists vp, vp'. split; [reflexivity|]. split; [reflexivity|].
  destruct (Rltb 0 (w_domain_pad w)) eqn:E.
  - apply Rltb_true in E. right. split; [exact E|]. destruct (w_bbox w) as [b|]; [|discriminate]. apply sbind_ok in H1.
    destruct H1 as ([[a' v'] b'] & H1 & H3). cbn [fst snd] in H3. injection H3 as <-. exists b, a', b'. auto.
  - apply Rltb_false in E. left. split; [exact E|]. injection H1 as <-. reflexivity.
Qed.

(** Only rank 0 writes; one file, whose name is the given name (or the name of the input) with ".hdf5" appended, never the
    input file itself; it holds the array read, sample by sample in float32, if no padding is asked for. *)
Theorem C87_file_written : forall rnd asraw rank name f ofname w,
  (rank <> 0%nat -> write_velocity_model rnd asraw rank name f ofname w = SzOk None) /\
  (forall h, rank = 0%nat -> write_velocity_model rnd asraw rank name f ofname w = SzOk (Some h) ->
     h_name h = String.append (match ofname with Some n => n | None => name end) ".hdf5" /\
     (ofname = None -> h_name h <> name) /\
     exists vp, read_velocity_model asraw name f (w_read w) = Ok vp /\
       (w_domain_pad w <= 0 -> has_shape (h_data h) (adim vp) (n0 vp) (n1 vp) (n2 vp) /\ forall i j k, av (h_data h) i j k = rnd (av vp i j k))).
Proof.
  intros rnd asraw rank name f ofname w. split.
  - intros H. unfold write_velocity_model. destruct (Nat.eqb_spec rank 0); [contradiction|reflexivity].
  - intros h -> H. destruct (write_inv _ _ _ _ _ _ _ H) as (vp & vp' & H1 & -> & HP). cbn [h_name h_data]. split; [reflexivity|]. split.
    + intros ->. intros Q. assert (String.length (String.append name ".hdf5") = String.length name) as L by (rewrite Q; reflexivity).
      revert L. clear. assert (forall a b, String.length (String.append a b) = (String.length a + String.length b)%nat) as K.
      { induction a as [|c a IH]; intros b; cbn; [reflexivity|rewrite IH; reflexivity]. } rewrite K. cbn. lia.
    + exists vp. split; [exact H1|]. intros HL. destruct HP as [[_ ->] | [HG _]]; [|lra]. split; [repeat split|]. reflexivity.
Qed.
Print Assumptions C87_file_written.

(** The file fits the size function: with the same box, width and style of padding the array written has the extents of the
    array of sizes; with velocities in m/s and none of them below 0.001 the samples are those the sizes were computed from. *)
Theorem C87_fits_the_size_function : forall rnd asraw name f ofname w h ufilter o b vp a4 vp4 b4,
  write_velocity_model rnd asraw 0 name f ofname w = SzOk (Some h) -> read_velocity_model asraw name f (w_read w) = Ok vp ->
  w_bbox w = Some b -> w_domain_pad w = o_domain_pad o -> w_pad_style w = o_pad_style o ->
  get_sizing ufilter o b vp = SzOk (a4, vp4, b4) ->
  has_shape (h_data h) (adim a4) (n0 a4) (n1 a4) (n2 a4) /\
  (o_units o = MS -> (forall i j k, 1 / 1000 <= av vp i j k) -> forall i j k, av (h_data h) i j k = rnd (av vp4 i j k)).
Proof.
  intros rnd asraw name f ofname w h ufilter o b vp a4 vp4 b4 HW HR HB HD HS HG.
  destruct (write_inv _ _ _ _ _ _ _ HW) as (vp0 & vp' & HR' & -> & HP). rewrite HR in HR'. injection HR' as <-. cbn [h_data].
  apply get_sizing_inv in HG. destruct HG as (vp1 & a0 & a2 & a3 & E1 & _ & _ & _ & _ & E5 & S1 & _ & _ & S3).
  assert (o_units o = MS -> (forall i j k, 1 / 1000 <= av vp i j k) -> vp1 = vp) as EV.
  { intros EU EN. unfold prepare_vp in E1. rewrite EU in E1. cbn [convert_units] in E1. unfold replace_water in E1.
    destruct (water_trigger vp) eqn:ET; [|injection E1 as <-; reflexivity]. exfalso. unfold water_trigger in ET. apply existsb_exists in ET.
    destruct ET as ([[i j] k] & _ & ET). apply andb_true_iff in ET. destruct ET as [ET _]. unfold is_water in ET. apply Rltb_true in ET. specialize (EN i j k). lra. }
  destruct HP as [[HL ->] | (HL & b' & a' & b2 & EB & HP)].
  - unfold domain_pad in E5. rewrite <- HD in E5. destruct (Rltb (w_domain_pad w) 0); [discriminate|]. unfold Rgtb in E5.
    rewrite (proj2 (Rltb_false 0 (w_domain_pad w))) in E5 by exact HL. injection E5 as -> -> _. split.
    + destruct S3 as (A & C & D & E). unfold has_shape. cbn [amap adim n0 n1 n2]. repeat split; congruence.
    + intros EU EN i j k. rewrite (EV EU EN). reflexivity.
  - rewrite HB in EB. injection EB as <-. unfold domain_pad in HP, E5. rewrite <- HD, <- HS in E5.
    destruct (Rltb (w_domain_pad w) 0); [discriminate|]. unfold Rgtb in HP, E5. rewrite (proj2 (Rltb_true 0 (w_domain_pad w))) in HP, E5 by exact HL.
    assert (pad_counts vp1 b (w_domain_pad w) = pad_counts vp b (w_domain_pad w)) as EP.
    { unfold pad_counts, dz_of, dx_of, dy_of. destruct S1 as (-> & -> & -> & ->). reflexivity. }
    rewrite EP in E5. destruct (pad_counts vp b (w_domain_pad w)) as [[p0 p1] p2].
    apply sbind_ok in HP. destruct HP as (x1 & X1 & HP). apply sbind_ok in HP. destruct HP as (x2 & X2 & HP). injection HP as <- <- _.
    apply sbind_ok in E5. destruct E5 as (y1 & Y1 & E5). apply sbind_ok in E5. destruct E5 as (y2 & Y2 & E5). injection E5 as <- <- _.
    split.
    + destruct (pad_it_ok _ _ _ _ _ _ _ X2) as (Q1 & Q2 & Q3 & Q4 & _). destruct (pad_it_ok _ _ _ _ _ _ _ Y1) as (R1 & R2 & R3 & R4 & _).
      destruct S3 as (A & C & D & E). unfold has_shape. cbn [amap adim n0 n1 n2]. repeat split; congruence.
    + intros EU EN i j k. rewrite (EV EU EN) in Y2. rewrite X2 in Y2. injection Y2 as <-. reflexivity.
Qed.
Print Assumptions C87_fits_the_size_function.

(** The units option is not looked at: the label is "m/s" and the samples are those of the file whatever the units are. *)
Theorem C87_units_ignored : forall rnd asraw name f ofname w h u, write_velocity_model rnd asraw 0 name f ofname w = SzOk (Some h) ->
  h_units h = "m/s"%string /\
  forall more, write_velocity_model rnd asraw 0 name f ofname (mkWrite (w_read w) (w_domain_pad w) (w_pad_style w) (w_bbox w) u (more ++ w_other w)) = SzOk (Some h).
Proof.
  intros rnd asraw name f ofname w h u H. split; [|intros more; exact H]. destruct (write_inv _ _ _ _ _ _ _ H) as (vp & vp' & _ & -> & _). reflexivity.
Qed.
Print Assumptions C87_units_ignored.
(** so a file in km/s is labelled m/s with velocities a thousand times below those the size function uses *)
Definition km_file : stored := SegyFile 2 [[15/10; 2]; [15/10; 2]].
Definition km_write : write_opts := mkWrite (mkRead true None None None [] OrdF) 0 PadEdge None KMS [].
Theorem C87_km_s_refuted : forall asraw, exists h, write_velocity_model (fun x => x) asraw 0 "m.segy" km_file (Some "o"%string) km_write = SzOk (Some h) /\
  h_name h = "o.hdf5"%string /\ h_units h = "m/s"%string /\ av (h_data h) 0 0 0 = 2 /\
  forall vp, read_velocity_model asraw "m.segy" km_file (w_read km_write) = Ok vp -> av (convert_units (w_units km_write) vp) 0 0 0 = 2000.
Proof.
  intros asraw. unfold write_velocity_model, km_write. cbn [w_read w_domain_pad Nat.eqb].
  assert (read_velocity_model asraw "m.segy" km_file (mkRead true None None None [] OrdF) = Ok (read_segy 2 [[15/10; 2]; [15/10; 2]])) as -> by reflexivity.
  unfold Rgtb. rewrite (proj2 (Rltb_false 0 0)) by lra. cbn [sbind]. eexists. split; [reflexivity|]. split; [reflexivity|]. split; [reflexivity|]. split; [reflexivity|].
  intros vp E. injection E as <-. cbn. ring.
Qed.
Print Assumptions C87_km_s_refuted.
(** A negative padding is refused by the size function but accepted here (nothing is padded); padding without a box fails. *)
Theorem C87_padding_arguments : forall rnd asraw name f ofname w vp, read_velocity_model asraw name f (w_read w) = Ok vp ->
  (w_domain_pad w < 0 -> (exists h, write_velocity_model rnd asraw 0 name f ofname w = SzOk (Some h)) /\
     forall a b st, domain_pad a vp b st (w_domain_pad w) = SzErr ValueError) /\
  (0 < w_domain_pad w -> w_bbox w = None -> exists e, write_velocity_model rnd asraw 0 name f ofname w = SzErr e).
Proof.
  intros rnd asraw name f ofname w vp HR. split.
  - intros HN. split.
    + unfold write_velocity_model. cbn [Nat.eqb]. rewrite HR. unfold Rgtb. rewrite (proj2 (Rltb_false 0 _)) by lra. cbn [sbind]. eauto.
    + intros a b st. unfold domain_pad. rewrite (proj2 (Rltb_true _ 0)) by exact HN. reflexivity.
  - intros HP HB. unfold write_velocity_model. cbn [Nat.eqb]. rewrite HR, HB. unfold Rgtb. rewrite (proj2 (Rltb_true 0 _)) by exact HP. cbn [sbind]. eauto.
Qed.
Print Assumptions C87_padding_arguments.

(** the hypotheses are met: a 2 x 2 SEG-Y file padded by one cell *)
Definition pad_write : write_opts := mkWrite (mkRead true None None None [] OrdF) 1 PadEdge (Some [0; 2; 0; 2]) MS [].
Example C87_case : exists h, write_velocity_model (fun x => x) (fun _ => []) 0 "m.segy" km_file None pad_write = SzOk (Some h) /\
  h_name h = "m.segy.hdf5"%string /\ has_shape (h_data h) 2 3 4 1 /\ av (h_data h) 1 1 0 = 2 /\ ends_with ".segy" "m.SEGY" = false /\ ends_with ".segy" "m.segy" = true.
Proof.
  unfold write_velocity_model, pad_write. cbn [w_read w_domain_pad w_bbox w_pad_style Nat.eqb].
  assert (read_velocity_model (fun _ => []) "m.segy" km_file (mkRead true None None None [] OrdF) = Ok (read_segy 2 [[15/10; 2]; [15/10; 2]])) as -> by reflexivity.
  unfold Rgtb. rewrite (proj2 (Rltb_true 0 1)) by lra. unfold domain_pad. rewrite (proj2 (Rltb_false 1 0)) by lra. unfold Rgtb. rewrite (proj2 (Rltb_true 0 1)) by lra.
  assert (pad_counts (read_segy 2 [[15/10; 2]; [15/10; 2]]) [0; 2; 0; 2] 1 = (1, 1, 0)%nat) as ->.
  { unfold pad_counts, dz_of, dx_of, bget, int_of. cbn [read_segy n0 n1 adim length Nat.eqb nth INR].
    replace (1 / ((2 - 0) / (1 + 1))) with 1 by field. assert (Int_part 1 = 1%Z) as ->; [|reflexivity].
    unfold Int_part. rewrite <- (tech_up 1 2) by lra. reflexivity. }
  cbn [sbind pad_it fst snd]. eexists. split; [reflexivity|]. split; [reflexivity|]. split; [repeat split|]. split; [reflexivity|]. split; reflexivity.
Qed.
