(** Two calls of get_sizing_function_from_segy of which the second asks for no finer resolution than the first. *)
From Coq Require Import List Reals.
From Verif Require Import Model.Base Model.Sizing Spec.Velocity.
Local Open Scope R_scope.

(** same shape, nowhere slower *)
Definition faster (vp vp' : garr) : Prop :=
  (adim vp', n0 vp', n1 vp', n2 vp') = (adim vp, n0 vp, n1 vp, n2 vp) /\ forall i j k, has vp i j k -> av vp i j k <= av vp' i j k.
(** no water samples *)
Definition dry (u : units) (vp : garr) : Prop := forall i j k, has vp i j k -> 1 / 1000 <= scaled u (av vp i j k).
(** the same velocities, or larger ones if sizes do not depend on the velocity gradient *)
Definition no_slower (o o' : opts) (vp vp' : garr) : Prop :=
  o_units o' = o_units o /\
  (vp' = vp /\ o_vp_water o' = o_vp_water o \/ o_grad o = 0 /\ faster vp vp' /\ dry (o_units o) vp).
(** fewer cells per wavelength at no higher frequency (both calls use wl, or neither does); larger grad, hmin, hmax, timestep and space order;
    smaller Courant number; the same padding *)
Definition no_finer (o o' : opts) : Prop :=
  (o_wl o = 0 /\ o_wl o' = 0 \/ 0 < o_wl o' <= o_wl o /\ 0 < o_freq o' <= o_freq o) /\
  (o_grad o = 0 /\ o_grad o' = 0 \/ 0 < o_grad o <= o_grad o') /\
  o_hmin o <= o_hmin o' /\ o_hmax o <= o_hmax o' /\
  0 <= o_dt o <= o_dt o' /\ 0 < o_cr_max o' <= o_cr_max o /\ 0 < o_space_order o <= o_space_order o' /\
  o_pad_style o' = o_pad_style o /\ o_domain_pad o' = o_domain_pad o.
