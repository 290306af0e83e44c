(** Vocabulary about velocity arrays and the arguments of get_sizing_function_from_segy. *)
From Coq Require Import List Reals Arith.
From Verif Require Import Model.Sizing.
Import ListNotations.
Local Open Scope R_scope.

Definition has (a : garr) (i j k : nat) : Prop := (i < n0 a /\ j < n1 a /\ k < n2 a)%nat.
(** two entries that differ only in their index along [axis] have different values *)
Definition varies (axis : nat) (a : garr) : Prop := exists i j k i' j' k', has a i j k /\ has a i' j' k' /\
  (axis <> 0%nat -> i = i') /\ (axis <> 1%nat -> j = j') /\ (axis <> 2%nat -> k = k') /\ av a i j k <> av a i' j' k'.
(** the velocity varies along an axis whose window has at least two samples *)
Definition change_seen (win : list R) (vp : garr) : Prop := exists axis, (axis < 3)%nat /\ 2 <= nth axis win 0 /\ varies axis vp.
(** at most half a window away along every axis *)
Definition within_window (win : list R) (i j k i' j' k' : nat) : Prop :=
  Rabs (INR i - INR i') <= Rmax 0 (nth 0 win 0 / 2) /\ Rabs (INR j - INR j') <= Rmax 0 (nth 1 win 0 / 2) /\ Rabs (INR k - INR k') <= Rmax 0 (nth 2 win 0 / 2).
(** scaling of the samples to m/s *)
Definition scaled (u : units) (v : R) : R := match u with KMS => 1000 * v | FTS => 3 / 10 * v | _ => v end.
(** a sample below 0.001 m/s in a row other than row 0 *)
Definition has_water (o : opts) (vp : garr) : Prop := exists i j k, has vp i j k /\ (0 < i)%nat /\ scaled (o_units o) (av vp i j k) < 1 / 1000.
(** the arguments that are accepted; [vp1] is the velocity in m/s with the water filled in *)
Definition acceptable (win : list R) (o : opts) (vp vp1 : garr) : Prop :=
  (has_water o vp -> exists x, o_vp_water o = Some x /\ 1300 <= x <= 1800) /\
  (0 < o_wl o \/ 0 < o_grad o -> 0 <= o_wl o /\ 0 <= o_grad o /\ (0 < o_wl o -> 0 < o_freq o) /\ (0 < o_grad o -> change_seen win vp1)) /\
  (o_cr_max o = 0 \/ o_dt o = 0 \/ o_space_order o = 0 \/ 0 < o_cr_max o /\ 0 < o_dt o /\ 1 <= o_space_order o) /\
  0 <= o_grade o /\ 0 <= o_domain_pad o /\ (0 < o_domain_pad o -> o_pad_style o <> PadOther).
