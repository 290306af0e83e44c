(** The pipeline of get_sizing_function_from_segy (sizing/mesh_size_function.py) in floating point; Model/Sizing.v has it over the reals.
    The velocity array is float32 (files read with the default dtype, SEG-Y) or float64.  An operation of an array with a Python number
    is done in the type of the array, the number being rounded to that type first (numpy's rule for Python scalars); an operation of a
    float32 with a float64 array is done in float64.  Python's own arithmetic is float64.  The limiter is C++ double.
    Not modelled: overflow to inf, NaN, and options given as numpy scalars instead of Python numbers.  The rows written by np.pad's
    linear_ramp and the values of scipy's uniform_filter are left open (parameters [ramp], [ufilter]). *)
From Coq Require Import List ZArith Reals Bool.
From Flocq Require Import Core.
From Verif Require Import Model.Base Model.FastHJ Model.Sizing.
Import ListNotations.
Local Open Scope R_scope.

Inductive dtype := F32 | F64.
Definition rnd32 (x : R) : R := round radix2 (FLT_exp (-149) 24) ZnearestE x.
(** rounding of a result stored in an array of the given type; also the value of a Python number meeting such an array *)
Definition rd (t : dtype) (x : R) : R := match t with F32 => rnd32 x | F64 => rnd64 x end.

(** l.146-151 *)
Definition convert_units_f (t : dtype) (u : units) (vp : garr) : garr :=
  match u with
  | KMS => amap (fun v => rd t (v * 1000)) vp
  | FTS => amap (fun v => rd t (v * rd t (rnd64 (3 / 10)))) vp
  | _ => vp
  end.
(** l.154-165 *)
Definition is_water_f (t : dtype) (v : R) : bool := Rltb v (rd t (rnd64 (1 / 1000))).
Definition water_trigger_f (t : dtype) (vp : garr) : bool :=
  existsb (fun p => let '(i, j, k) := p in is_water_f t (av vp i j k) && negb (Nat.eqb i 0)) (triples (n0 vp) (n1 vp) (n2 vp)).
Definition replace_water_f (t : dtype) (w : option R) (vp : garr) : sizing_result garr :=
  if water_trigger_f t vp then
    match w with
    | None => SzErr ValueError
    | Some x => if Rltb x 1300 || Rgtb x 1800 then SzErr ValueError
                else SzOk (amap (fun v => if is_water_f t v then rd t x else v) vp)
    end
  else SzOk vp.
Definition prepare_vp_f (t : dtype) (o : opts) (vp : garr) : sizing_result garr :=
  replace_water_f t (o_vp_water o) (convert_units_f t (o_units o) vp).

(** l.411-425: freq * wl is a Python product, then cast to the type of the array *)
Definition wave_divisor (t : dtype) (freq wl : R) : R := rd t (rnd64 (freq * wl)).
Definition wavelength_sizing_f (t : dtype) (vp : garr) (wl freq : R) : sizing_result garr :=
  if Reqb wl 0 then SzOk (amap (fun _ => 99999) vp)
  else if Rltb wl 0 then SzErr ValueError
  else if Rltb freq 0 then SzErr ValueError
  else if Reqb (wave_divisor t freq wl) 0 then SzNonFinite
  else SzOk (amap (fun v => rd t (v / wave_divisor t freq wl)) vp).

Section Float.
Variable ufilter : garr -> garr.
Variable ramp : nat -> nat -> nat -> R -> garr -> garr.

(** l.428-448 *)
Definition window_variance_f (t : dtype) (vp : garr) : garr :=
  amap2 (fun s m => rd t (s - rd t (m * m))) (ufilter (amap (fun v => rd t (v * v)) vp)) (ufilter vp).
Definition gradient_of_variance_f (t : dtype) (w : garr) (grad : R) : sizing_result garr :=
  let mx := amax w in
  if Reqb mx 0 then SzNonFinite
  else
    let w1 := amap (fun v => rd t (v / mx)) w in
    let mn := amin w1 in
    let w2 := amap (fun v => rd t (v - mn)) w1 in
    SzOk (amap (fun v => rd t (rd t grad / rd t (v + rd t (rnd64 (1 / 10))))) w2).
Definition gradient_sizing_f (t : dtype) (vp : garr) (grad : R) : sizing_result garr :=
  if Reqb grad 0 then SzOk (amap (fun _ => 99999) vp)
  else if Rltb grad 0 then SzErr ValueError
  else gradient_of_variance_f t (window_variance_f t vp) grad.

(** l.175 and 207-211, 649-657: the array of hmin is float64 whatever the type of the velocities *)
Definition size_type (t : dtype) (o : opts) : dtype := if Rgtb (o_wl o) 0 || Rgtb (o_grad o) 0 then t else F64.
Definition initial_size_f (t : dtype) (o : opts) (vp : garr) : sizing_result garr :=
  if Rgtb (o_wl o) 0 || Rgtb (o_grad o) 0 then
    sbind (wavelength_sizing_f t vp (o_wl o) (o_freq o)) (fun a =>
    sbind (gradient_sizing_f t vp (o_grad o)) (fun b => SzOk (amap2 Rmin a b)))
  else SzOk (amap (fun _ => o_hmin o) vp).

(** l.213-217: compared with, and replaced by, hmin and hmax in the type of the sizes *)
Definition clamp_f (s : dtype) (hmin hmax : R) (a : garr) : garr :=
  amap (fun v => if Rgtb v (rd s hmax) then rd s hmax else v) (amap (fun v => if Rltb v (rd s hmin) then rd s hmin else v) a).

(** l.451-466; t is the type of the velocities, s that of the sizes (s = t or float64) *)
Definition limit_f (dim cr_max space_order : R) : R := rnd64 (cr_max / rnd64 (dim * space_order)).
Definition courant_f (t s : dtype) (vp a : garr) (cr_max dt space_order : R) : sizing_result garr :=
  if Reqb cr_max 0 || Reqb dt 0 || Reqb space_order 0 then SzOk a
  else if Rltb cr_max 0 then SzErr ValueError
  else if Rltb dt 0 then SzErr ValueError
  else if Rltb space_order 1 then SzErr ValueError
  else if existsb (fun x => Reqb x 0) (flattenF a) then SzNonFinite
  else
    let d := INR (adim vp) in
    let c := limit_f d cr_max space_order in
    SzOk (amap2 (fun v x =>
      if Rgtb (rd s (rd t (v * rd t dt) / rd s (d * x))) (rd s c)
      then rd t (rd t (v * rd t dt) / rd t (rnd64 (d * c))) else x) vp a).

(** l.469-494; [elen] l.224 *)
Definition gradation_f (a : garr) (grade elen : R) : sizing_result garr :=
  if Reqb grade 0 then SzOk a
  else if Rltb grade 0 then SzErr ValueError
  else match limgrad rnd64 (Z.of_nat (n0 a)) (Z.of_nat (n1 a)) (Z.of_nat (n2 a)) elen grade max_sweeps (flattenF a) with
       | Some l => SzOk (reshapeF (adim a) (n0 a) (n1 a) (n2 a) l)
       | None => SzErr OtherError
       end.

(** l.497-511: (hi - lo) / n in Python arithmetic *)
Definition width_f (lo hi : R) (n : nat) : R := rnd64 (rnd64 (hi - lo) / INR n).
(** l.538-558: int(domain_pad / width), and the grown box *)
Definition layers_f (pad lo hi : R) (n : nat) : nat := int_of (rnd64 (pad / width_f lo hi n)).
Definition pad_counts_f (vp : garr) (b : bbox) (pad : R) : nat * nat * nat :=
  (layers_f pad (bget b 0) (bget b 1) (n0 vp), layers_f pad (bget b 2) (bget b 3) (n1 vp),
   if Nat.eqb (adim vp) 3 then layers_f pad (bget b 4) (bget b 5) (n2 vp) else 0%nat).
Definition padded_bbox_f (dim : nat) (b : bbox) (pad : R) : bbox :=
  let lo i := rnd64 (bget b i - pad) in
  let hi i := rnd64 (bget b i + pad) in
  if Nat.eqb dim 3 then [lo 0%nat; bget b 1; lo 2%nat; hi 3%nat; lo 4%nat; hi 5%nat] else [lo 0%nat; bget b 1; lo 2%nat; hi 3%nat].
(** l.575-587: edge and constant copy entries *)
Definition pad_it_f (st : padstyle) (p0 p1 p2 : nat) (ext : R) (a : garr) : sizing_result garr :=
  match st with PadLinearRamp => SzOk (ramp p0 p1 p2 ext a) | _ => pad_it st p0 p1 p2 ext a end.
(** l.526-572 *)
Definition domain_pad_f (a vp : garr) (b : bbox) (st : padstyle) (pad : R) : sizing_result (garr * garr * bbox) :=
  if Rltb pad 0 then SzErr ValueError
  else if Rgtb pad 0 then
    let '(p0, p1, p2) := pad_counts_f vp b pad in
    sbind (pad_it_f st p0 p1 p2 (amax a) a) (fun a' =>
    sbind (pad_it_f st p0 p1 p2 (amax vp) vp) (fun vp' => SzOk (a', vp', padded_bbox_f (adim vp) b pad)))
  else SzOk (a, vp, b).

(** l.127-239 on rank 0, for velocities of type t *)
Definition get_sizing_f (t : dtype) (o : opts) (b : bbox) (vp : garr) : sizing_result (garr * garr * bbox) :=
  sbind (prepare_vp_f t o vp) (fun vp1 =>
  match bbox_dim b with
  | Err e => SzErr e
  | Ok _ =>
    let s := size_type t o in
    sbind (initial_size_f t o vp1) (fun a0 =>
    let a1 := clamp_f s (o_hmin o) (o_hmax o) a0 in
    sbind (courant_f t s vp1 a1 (o_cr_max o) (o_dt o) (o_space_order o)) (fun a2 =>
    sbind (gradation_f a2 (o_grade o) (width_f (bget b 0) (bget b 1) (n0 vp1))) (fun a3 =>
    domain_pad_f a3 vp1 b (o_pad_style o) (o_domain_pad o))))
  end).
End Float.
