(** Model of get_sizing_function_from_segy called by several processes (sizing/mesh_size_function.py l.124-239): rank 0 computes, the
    other ranks only receive the box.  The broadcast (l.236) is written with sends and receives as in Model/Parallel.v.
    Simplification: the velocities are given (an exception of the file reader on rank 0 acts like any other exception of rank 0). *)
From Coq Require Import Reals List Arith Bool.
From Verif Require Import Model.Base Model.Sizing Model.Interp Model.MPI Model.Process Model.Parallel.
Import ListNotations.
Local Open Scope R_scope.

(** a SizeFunction: box, function, hmin *)
Definition size_object := (bbox * (list R -> R) * R)%type.
(** outcome of a rank; [None]: rank 0 computed with inf or NaN, not modelled *)
Definition sizing_out := option (result size_object).
(** l.135-229 on rank 0; [known]: every keyword is a recognised option (l.180-211, checked after the water and the box, which raise ValueError too) *)
Definition rank0_sizing (ufilter : garr -> garr) (rnd : R -> R) (known : bool) (o : opts) (b : bbox) (vp : garr) : sizing_result size_object :=
  if known then size_function ufilter rnd o b vp else SzErr ValueError.
(** l.226-239; the box each rank was given is replaced by that of rank 0 *)
Definition sizing_rank (ufilter : garr -> garr) (rnd : R -> R) (known : bool) (o : opts) (b : bbox) (vp : garr) (size rank : nat) : proc pmsg sizing_out :=
  let agree b0 := if (1 <? size)%nat then pbind (bcast_p size rank 0 (MPts [b0])) (fun m => Done (nth 0 (pts_in m) [])) else Done b0 in
  if (rank =? 0)%nat then
    match rank0_sizing ufilter rnd known o b vp with
    | SzErr e => Done (Some (Err e))
    | SzNonFinite => Done None
    | SzOk (b4, f, h) => pbind (agree b4) (fun b' => Done (Some (Ok (b', f, h))))
    end
  else pbind (agree b) (fun b' => Done (Some (Ok (size_function_other b' o)))).
(** ranks 0, ..., size - 1 *)
Definition sizing_ranks ufilter rnd known o b vp (size : nat) (r : nat) : proc pmsg sizing_out :=
  if (r <? size)%nat then sizing_rank ufilter rnd known o b vp size r else Done None.
