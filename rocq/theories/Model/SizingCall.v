(** get_sizing_function_from_segy as it is called on one process (sizing/mesh_size_function.py l.127-239): where the velocities come from,
    the numbers of grid points passed beside them, boxes of the wrong length or type.  Model/Sizing.v has the arithmetic for a box and an
    array that fit each other; here nothing is assumed to fit.
    Simplifications: nz, nx, ny are non-negative integers or None; the box is a tuple or a list of numbers; of two exceptions of
    different kinds in one call the model may name the other one. *)
From Coq Require Import String List Reals Bool Arith.
From Verif Require Import Model.Base Model.FastHJ Model.ReadBin Model.Sizing Model.Interp Model.VelocityIO.
Import ListNotations.
Local Open Scope R_scope.

(** l.128-143: velocity array and the numbers of grid points used below; _read_segy returns 0 for ny (l.646) *)
Definition velocities (asraw : stored -> list R) (name : string) (f : stored) (ro : read_opts) (data : option garr)
    : result (garr * option nat * option nat * option nat) :=
  match data with
  | Some vp => Ok (vp, r_nz ro, r_nx ro, r_ny ro)
  | None => rbind (read_velocity_model asraw name f ro) (fun vp =>
      if ends_with ".segy" name then Ok (vp, Some (n0 vp), Some (n1 vp), Some 0%nat) else Ok (vp, r_nz ro, r_nx ro, r_ny ro))
  end.
(** l.175, 649-657: np.full((nz, nx[, ny]), hmin); None is not an extent *)
Definition constant_size (dim : nat) (h : R) (nz nx ny : option nat) : result garr :=
  match nz, nx, (if Nat.eqb dim 3 then ny else Some 1%nat) with
  | Some a, Some b, Some c => Ok (mkArr dim a b c (fun _ _ _ => h))
  | _, _, _ => Err TypeError
  end.

(** numpy's broadcasting: axes are aligned at the end, an extent 1 is stretched *)
Definition same_shape (a b : garr) : bool := Nat.eqb (adim a) (adim b) && Nat.eqb (n0 a) (n0 b) && Nat.eqb (n1 a) (n1 b) && Nat.eqb (n2 a) (n2 b).
Definition at_end (a : garr) : garr := if Nat.eqb (adim a) 2 then mkArr 3 1 (n0 a) (n1 a) (fun _ i j => av a i j 0%nat) else a.
Definition fit1 (m n : nat) : option nat := if Nat.eqb m n then Some m else if Nat.eqb m 1 then Some n else if Nat.eqb n 1 then Some m else None.
Definition stretch (a : garr) (m0 m1 m2 : nat) : garr :=
  if Nat.eqb (n0 a) m0 && Nat.eqb (n1 a) m1 && Nat.eqb (n2 a) m2 then a else
  mkArr (adim a) m0 m1 m2 (fun i j k => av a (if Nat.eqb (n0 a) 1 then 0%nat else i) (if Nat.eqb (n1 a) 1 then 0%nat else j) (if Nat.eqb (n2 a) 1 then 0%nat else k)).
Definition broadcast (a b : garr) : option (garr * garr) :=
  if same_shape a b then Some (a, b) else
  let '(a', b') := if Nat.eqb (adim a) (adim b) then (a, b) else (at_end a, at_end b) in
  match fit1 (n0 a') (n0 b'), fit1 (n1 a') (n1 b'), fit1 (n2 a') (n2 b') with
  | Some m0, Some m1, Some m2 => Some (stretch a' m0 m1 m2, stretch b' m0 m1 m2)
  | _, _, _ => None
  end.
(** l.451-466 on arrays of any shapes *)
Definition courant_call (vp a : garr) (cr_max dt space_order : R) : sizing_result garr :=
  if Reqb cr_max 0 || Reqb dt 0 || Reqb space_order 0 then SzOk a
  else if Rltb cr_max 0 then SzErr ValueError
  else if Rltb dt 0 then SzErr ValueError
  else if Rltb space_order 1 then SzErr ValueError
  else match broadcast vp a with
  | None => SzErr ValueError
  | Some (vp', a') =>
      if existsb (fun x => Reqb x 0) (flattenF a) then SzNonFinite
      else
        let d := INR (adim vp) in
        let cr := cr_max / (d * space_order) in
        SzOk (amap2 (fun v s => if Rgtb (v * dt / (d * s)) cr then v * dt / (d * cr) else s) vp' a')
  end.

(** indexing bbox[4], bbox[5] (l.509, 550) *)
Definition box_too_short (vp : garr) (b : bbox) : bool := Nat.eqb (adim vp) 3 && (length b <? 6)%nat.
Definition no_entries (a : garr) : bool := Nat.eqb (n0 a * n1 a * n2 a) 0.
(** l.526-572: np.amax of an empty array and np.pad with another number of axes raise *)
Definition pad_call (a vp : garr) (b : bbox) (st : padstyle) (pad : R) : sizing_result (garr * garr * bbox) :=
  if Rltb pad 0 then SzErr ValueError
  else if Rgtb pad 0 then
    if box_too_short vp b then SzErr OtherError
    else if no_entries a || no_entries vp || negb (Nat.eqb (adim a) (adim vp)) then SzErr ValueError
    else domain_pad a vp b st pad
  else SzOk (a, vp, b).
(** l.391-408: the grid vectors have the extents of the velocity array, the values those of the sizes *)
Definition interpolant_call (rnd : R -> R) (a vp : garr) (b : bbox) : sizing_result (list R -> R) :=
  if box_too_short vp b then SzErr OtherError
  else if negb (same_shape a vp) then SzErr ValueError
  else build_interpolant rnd a b.

Section Call.
Variables (ufilter : garr -> garr) (rnd : R -> R) (known tuple : bool) (o : opts) (b : bbox).
(** l.144-239 on rank 0; [known]: all keywords are recognised; [tuple]: the box is a tuple (size_function.py l.3-5) *)
Definition sizing_call (src : result (garr * option nat * option nat * option nat)) : sizing_result (bbox * (list R -> R) * R) :=
  match src with
  | Err e => SzErr e
  | Ok (vp, nz, nx, ny) =>
    sbind (prepare_vp o vp) (fun vp1 =>
    match bbox_dim b with
    | Err e => SzErr e
    | Ok dim =>
      match constant_size dim (o_hmin o) nz nx ny with
      | Err e => SzErr e
      | Ok a =>
        if negb known then SzErr ValueError else
        sbind (if Rgtb (o_wl o) 0 || Rgtb (o_grad o) 0 then initial_size ufilter o vp1 else SzOk a) (fun a0 =>
        let a1 := clamp (o_hmin o) (o_hmax o) a0 in
        sbind (courant_call vp1 a1 (o_cr_max o) (o_dt o) (o_space_order o)) (fun a2 =>
        match nz with
        | Some (S n) =>
            sbind (gradation a2 (o_grade o) ((bget b 1 - bget b 0) / INR (S n))) (fun a3 =>
            sbind (pad_call a3 vp1 b (o_pad_style o) (o_domain_pad o)) (fun r => let '(a4, vp2, b') := r in
            sbind (interpolant_call rnd a4 vp2 b') (fun f =>
            if tuple || Rgtb (o_domain_pad o) 0 then SzOk (b', f, o_hmin o) else SzErr ValueError)))
        | _ => SzErr OtherError                                                      (* l.224: division by zero *)
        end))
      end
    end)
  end.
End Call.
