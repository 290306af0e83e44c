(** Model of SeismicMesh/sizing/mesh_size_function.py (get_sizing_function_from_segy and its helpers)
    on rank 0.  Reals instead of binary64/float32.  The limiter is the one of Model/FastHJ.v with exact arithmetic.

    Arrays: a 2D array (nz,nx) is represented as a 3D one with third extent 1 and [adim] = 2.
    Simplification: nz, nx, ny are taken from the velocity array (they come from the file readers; a caller who
    passes [velocity_data] must pass them too).
    Divisions by zero (inf/NaN in numpy) give the separate outcome [SzNonFinite]. *)
From Coq Require Import List ZArith Reals Lia Bool.
From Verif Require Import Model.Base Model.FastHJ.
Import ListNotations.
Local Open Scope R_scope.

Record garr := mkArr { adim : nat; n0 : nat; n1 : nat; n2 : nat; av : nat -> nat -> nat -> R }.

(** all index triples of an array, first index fastest (numpy's flatten("F") order) *)
Definition triples (a b c : nat) : list (nat * nat * nat) :=
  flat_map (fun k => flat_map (fun j => map (fun i => (i, j, k)) (seq 0 a)) (seq 0 b)) (seq 0 c).
Definition flattenF (a : garr) : list R :=
  map (fun p => let '(i, j, k) := p in av a i j k) (triples (n0 a) (n1 a) (n2 a)).
(** np.reshape(l, shape, "F") *)
Definition reshapeF (dim a b c : nat) (l : list R) : garr :=
  mkArr dim a b c (fun i j k => nth (i + a * (j + b * k)) l 0).
Definition amap (f : R -> R) (a : garr) : garr :=
  mkArr (adim a) (n0 a) (n1 a) (n2 a) (fun i j k => f (av a i j k)).
Definition amap2 (f : R -> R -> R) (a b : garr) : garr :=
  mkArr (adim a) (n0 a) (n1 a) (n2 a) (fun i j k => f (av a i j k) (av b i j k)).
(** np.amax / np.amin *)
Definition amax (a : garr) : R := max_list (flattenF a).
Definition amin (a : garr) : R := min_list (flattenF a).

Inductive units := MS | KMS | FTS | OtherUnits.
Inductive padstyle := PadEdge | PadConstant | PadLinearRamp | PadOther.

(** The options of get_sizing_function_from_segy (l.100-123) that influence the numbers. *)
Record opts := mkOpts {
  o_vp_water : option R; o_hmin : R; o_hmax : R; o_wl : R; o_freq : R; o_grad : R; o_grade : R;
  o_space_order : R; o_dt : R; o_cr_max : R; o_pad_style : padstyle; o_domain_pad : R; o_units : units }.

(** l.100-123: the documented defaults *)
Definition default_opts : opts :=
  mkOpts (Some 1500) 150 10000 0 2 0 0 1 0 1 PadEdge 0 MS.

(** bounding box (zmin,zmax,xmin,xmax[,ymin,ymax]) *)
Definition bbox := list R.
Definition bget (b : bbox) (i : nat) : R := nth i b 0.

Inductive sizing_result (A : Type) := SzOk (a : A) | SzErr (e : exn) | SzNonFinite.
Arguments SzOk {A} a.
Arguments SzErr {A} e.
Arguments SzNonFinite {A}.
Definition sbind {A B} (r : sizing_result A) (k : A -> sizing_result B) : sizing_result B :=
  match r with SzOk a => k a | SzErr e => SzErr e | SzNonFinite => SzNonFinite end.

(** l.146-151: unit conversion, in place *)
Definition convert_units (u : units) (vp : garr) : garr :=
  match u with
  | KMS => amap (fun v => v * 1000) vp
  | FTS => amap (fun v => v * (3 / 10)) vp
  | _ => vp
  end.

(** l.154-155: [pos = np.where(vp < 1e-3)]; [any(pos[0])] looks at the row numbers, so it is true
    only when such an entry exists in a row other than row 0. *)
Definition is_water (v : R) : bool := Rltb v (1 / 1000).
Definition water_trigger (vp : garr) : bool :=
  existsb (fun p => let '(i, j, k) := p in is_water (av vp i j k) && negb (Nat.eqb i 0))
          (triples (n0 vp) (n1 vp) (n2 vp)).
(** l.154-165: water replacement, in place *)
Definition replace_water (w : option R) (vp : garr) : sizing_result garr :=
  if water_trigger vp then
    match w with
    | None => SzErr ValueError
    | Some x => if Rltb x 1300 || Rgtb x 1800 then SzErr ValueError
                else SzOk (amap (fun v => if is_water v then x else v) vp)
    end
  else SzOk vp.

(** l.146-165: the velocity array after the in-place steps; this is also the new content of the caller's
    [velocity_data] array. *)
Definition prepare_vp (o : opts) (vp : garr) : sizing_result garr :=
  replace_water (o_vp_water o) (convert_units (o_units o) vp).

(** l.168-173 *)
Definition bbox_dim (b : bbox) : result nat :=
  if Nat.eqb (length b) 4 then Ok 2%nat else if Nat.eqb (length b) 6 then Ok 3%nat else Err ValueError.

(** l.411-425; the scalar 99999 is broadcast *)
Definition wavelength_sizing (vp : garr) (wl freq : R) : sizing_result garr :=
  if Reqb wl 0 then SzOk (amap (fun _ => 99999) vp)
  else if Rltb wl 0 then SzErr ValueError
  else if Rltb freq 0 then SzErr ValueError
  else if Reqb (freq * wl) 0 then SzNonFinite
  else SzOk (amap (fun v => v / (freq * wl)) vp).

Section Gradient.
(** scipy.ndimage.uniform_filter with the chosen window: an unspecified function on arrays (oracle). *)
Variable ufilter : garr -> garr.

(** l.440-442 *)
Definition window_variance (vp : garr) : garr :=
  amap2 (fun s m => s - m * m) (ufilter (amap (fun v => v * v) vp)) (ufilter vp).

(** l.444-448 on a given variance field *)
Definition gradient_of_variance (w : garr) (grad : R) : sizing_result garr :=
  let mx := amax w in
  if Reqb mx 0 then SzNonFinite
  else
    let w1 := amap (fun v => v / mx) w in
    let mn := amin w1 in
    let w2 := amap (fun v => v - mn) w1 in
    SzOk (amap (fun v => grad / (v + 1 / 10)) w2).

(** l.428-448 *)
Definition gradient_sizing (vp : garr) (grad : R) : sizing_result garr :=
  if Reqb grad 0 then SzOk (amap (fun _ => 99999) vp)
  else if Rltb grad 0 then SzErr ValueError
  else gradient_of_variance (window_variance vp) grad.

(** l.175 and 207-211 *)
Definition initial_size (o : opts) (vp : garr) : sizing_result garr :=
  if Rgtb (o_wl o) 0 || Rgtb (o_grad o) 0 then
    sbind (wavelength_sizing vp (o_wl o) (o_freq o)) (fun a =>
    sbind (gradient_sizing vp (o_grad o)) (fun b => SzOk (amap2 Rmin a b)))
  else SzOk (amap (fun _ => o_hmin o) vp).

(** l.213-217 *)
Definition clamp (hmin hmax : R) (a : garr) : garr :=
  amap (fun v => if Rgtb v hmax then hmax else v) (amap (fun v => if Rltb v hmin then hmin else v) a).

(** l.451-466.  [SzNonFinite] when a size is zero (division by zero). *)
Definition courant (vp a : garr) (cr_max dt space_order : R) : sizing_result garr :=
  if Reqb cr_max 0 || Reqb dt 0 || Reqb space_order 0 then SzOk a
  else if Rltb cr_max 0 then SzErr ValueError
  else if Rltb dt 0 then SzErr ValueError
  else if Rltb space_order 1 then SzErr ValueError
  else if existsb (fun x => Reqb x 0) (flattenF a) then SzNonFinite
  else
    let d := INR (adim vp) in
    let cr := cr_max / (d * space_order) in
    SzOk (amap2 (fun v s => if Rgtb (v * dt / (d * s)) cr then v * dt / (d * cr) else s) vp a).

(** l.469-494: 10000 sweeps of the limiter *)
Definition max_sweeps : nat := Z.to_nat 10000.
Definition gradation (a : garr) (grade elen : R) : sizing_result garr :=
  if Reqb grade 0 then SzOk a
  else if Rltb grade 0 then SzErr ValueError
  else match limgrad (fun x => x) (Z.of_nat (n0 a)) (Z.of_nat (n1 a)) (Z.of_nat (n2 a)) elen grade max_sweeps (flattenF a) with
       | Some l => SzOk (reshapeF (adim a) (n0 a) (n1 a) (n2 a) l)
       | None => SzErr OtherError
       end.

(** np.pad along one axis (numpy semantics): [b] entries before, [c] entries after a row of [n] entries;
    [ext] is the value used by styles constant and linear_ramp. *)
Definition pad1 (st : padstyle) (ext : R) (b n c : nat) (f : nat -> R) (i : nat) : R :=
  if (i <? b)%nat then
    match st with
    | PadConstant => ext
    | PadLinearRamp => ext + (f 0%nat - ext) * (INR i / INR b)
    | _ => f 0%nat
    end
  else if (i <? b + n)%nat then f (i - b)%nat
  else match st with
       | PadConstant => ext
       | PadLinearRamp => ext + (f (n - 1)%nat - ext) * (INR (b + n + c - 1 - i) / INR c)
       | _ => f (n - 1)%nat
       end.

(** l.575-587: pad axis 0, then axis 1, then (3D) axis 2, as np.pad does.  Only 'before' on axis 0. *)
Definition pad_it (st : padstyle) (p0 p1 p2 : nat) (ext : R) (a : garr) : sizing_result garr :=
  match st with
  | PadOther => SzErr ValueError
  | _ =>
    let f1 := fun i j k => pad1 st ext p0 (n0 a) 0 (fun i' => av a i' j k) i in
    let f2 := fun i j k => pad1 st ext p1 (n1 a) p1 (fun j' => f1 i j' k) j in
    let f3 := fun i j k => pad1 st ext p2 (n2 a) p2 (fun k' => f2 i j k') k in
    SzOk (mkArr (adim a) (p0 + n0 a) (p1 + n1 a + p1) (p2 + n2 a + p2) f3)
  end.

(** int(x) for non-negative x *)
Definition int_of (x : R) : nat := Z.to_nat (Int_part x).

(** l.497-511: cell widths of the velocity array *)
Definition dz_of (vp : garr) (b : bbox) : R := (bget b 1 - bget b 0) / INR (n0 vp).
Definition dx_of (vp : garr) (b : bbox) : R := (bget b 3 - bget b 2) / INR (n1 vp).
Definition dy_of (vp : garr) (b : bbox) : R := (bget b 5 - bget b 4) / INR (n2 vp).

(** l.538-558: numbers of added layers and the grown box *)
Definition pad_counts (vp : garr) (b : bbox) (pad : R) : nat * nat * nat :=
  (int_of (pad / dz_of vp b), int_of (pad / dx_of vp b),
   if Nat.eqb (adim vp) 3 then int_of (pad / dy_of vp b) else 0%nat).
Definition padded_bbox (dim : nat) (b : bbox) (pad : R) : bbox :=
  if Nat.eqb dim 3 then
    [bget b 0 - pad; bget b 1; bget b 2 - pad; bget b 3 + pad; bget b 4 - pad; bget b 5 + pad]
  else [bget b 0 - pad; bget b 1; bget b 2 - pad; bget b 3 + pad].

(** l.526-572 *)
Definition domain_pad (a vp : garr) (b : bbox) (st : padstyle) (pad : R) : sizing_result (garr * garr * bbox) :=
  if Rltb pad 0 then SzErr ValueError
  else if Rgtb pad 0 then
    let '(p0, p1, p2) := pad_counts vp b pad in
    sbind (pad_it st p0 p1 p2 (amax a) a) (fun a' =>
    sbind (pad_it st p0 p1 p2 (amax vp) vp) (fun vp' => SzOk (a', vp', padded_bbox (adim vp) b pad)))
  else SzOk (a, vp, b).

(** l.127-239 on rank 0 (the recognised-option check is in Model/Options.v): the gridded sizes, the
    final velocity array and the final box. *)
Definition get_sizing (o : opts) (b : bbox) (vp : garr) : sizing_result (garr * garr * bbox) :=
  sbind (prepare_vp o vp) (fun vp1 =>
  match bbox_dim b with
  | Err e => SzErr e
  | Ok _ =>
    sbind (initial_size o vp1) (fun a0 =>
    let a1 := clamp (o_hmin o) (o_hmax o) a0 in
    sbind (courant vp1 a1 (o_cr_max o) (o_dt o) (o_space_order o)) (fun a2 =>
    sbind (gradation a2 (o_grade o) ((bget b 1 - bget b 0) / INR (n0 vp1))) (fun a3 =>
    domain_pad a3 vp1 b (o_pad_style o) (o_domain_pad o))))
  end).
End Gradient.

(** l.514-523: np.linspace(lo, hi, n)[i] (float32 rounding of the coordinates not modelled) *)
Definition linspace (lo hi : R) (n i : nat) : R :=
  if Nat.eqb n 1 then lo else lo + INR i * ((hi - lo) / INR (n - 1)).
