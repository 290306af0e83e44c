(** Numbers of the two array types and their relative rounding error. *)
From Coq Require Import Reals ZArith.
From Flocq Require Import Core.
From Verif Require Import Model.SizingFloat.
Local Open Scope R_scope.

(** the float32 resp. float64 numbers (without overflow) *)
Definition number (t : dtype) : R -> Prop :=
  match t with F32 => generic_format radix2 (FLT_exp (-149) 24) | F64 => generic_format radix2 (FLT_exp (-1074) 53) end.
(** half a unit in the last place, relatively *)
Definition ulp_of (t : dtype) : R := match t with F32 => / 2 ^ 24 | F64 => / 2 ^ 53 end.
(** neither near the smallest nor near the largest number: between about 1e-6 and 1e6 *)
Definition usual (x : R) : Prop := / 2 ^ 20 <= x <= 2 ^ 20.
