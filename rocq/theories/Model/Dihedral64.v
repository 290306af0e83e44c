(** calc_dihedral_angles (geometry/cpp/fast_geometry.cpp l.351-457) and _calc_dihedral_angles (generation/mesh_generator.py l.532-541) in
    binary64.  Overflow is not modelled, nor contraction of a product and a sum into one operation.  None is NaN: a division by zero makes
    everything after it infinite or NaN, and acos of these is NaN.  [acos64]: the C library's acos, any function; outside [-1,1] it gives NaN. *)
From Coq Require Import List ZArith Reals Bool Arith.
From Verif Require Import Model.Base Model.FastHJ Model.SDF Model.Mesh Model.Formulas Model.Laplace64 Model.Dihedral.
Import ListNotations.
Local Open Scope R_scope.

(** l2_norm l.79-85: the sum starts at 0 *)
Definition l2_norm64 (u : list R) : R := rnd64 (sqrt (sum64 (map (fun x => rnd64 (x * x)) u))).
(** cross_product l.87-94 *)
Definition cross_product64 (a b : list R) : list R :=
  let A i := nth i a 0 in let B i := nth i b 0 in
  [rnd64 (rnd64 (A 1%nat * B 2%nat) - rnd64 (A 2%nat * B 1%nat)); rnd64 (rnd64 (A 2%nat * B 0%nat) - rnd64 (A 0%nat * B 2%nat));
   rnd64 (rnd64 (A 0%nat * B 1%nat) - rnd64 (A 1%nat * B 0%nat))].
(** dot_product l.96-102 *)
Definition dot_product64 (a b : list R) : R := sum64 (map2 (fun x y => rnd64 (x * y)) a b).
(** l.376-413: cphi *)
Definition cphi64 (q0 q1 q2 q3 : list R) : option R :=
  let sub a b := rnd64 (a - b) in
  let v1 := map2 sub q1 q0 in let v2 := map2 sub q2 q0 in let v3 := map2 sub q3 q0 in
  let v1_div := l2_norm64 v1 in let v2_div := l2_norm64 v2 in let v3_div := l2_norm64 v3 in
  if Reqb v1_div 0 || Reqb v2_div 0 || Reqb v3_div 0 then None
  else
    let v1 := map (fun x => rnd64 (x / v1_div)) v1 in let v2 := map (fun x => rnd64 (x / v2_div)) v2 in let v3 := map (fun x => rnd64 (x / v3_div)) v3 in
    let den := rnd64 (l2_norm64 (cross_product64 v1 v2) * l2_norm64 (cross_product64 v1 v3)) in
    if Reqb den 0 then None
    else Some (rnd64 (rnd64 (dot_product64 v2 v3 - rnd64 (dot_product64 v1 v2 * dot_product64 v1 v3)) / den)).
(** l.414 *)
Definition dihedral_angle64 (acos64 : R -> R) (q0 q1 q2 q3 : list R) : option R :=
  match cphi64 q0 q1 q2 q3 with
  | None => None
  | Some c => if Rltb c (-1) || Rltb 1 c then None else Some (acos64 c)
  end.
(** l.354-372, as in Model/Dihedral.v *)
Definition cell_angles64 (acos64 : R -> R) (s : list (list R)) : list (option R) :=
  map (fun i => let e := nth i dh_edges (0,0)%nat in let o := nth (5 - i) dh_edges (0,0)%nat in
     dihedral_angle64 acos64 (nth (fst e) s []) (nth (snd e) s []) (nth (fst o) s []) (nth (snd o) s [])) (seq 0 6).
Definition calc_dihedral_angles64 (acos64 : R -> R) (p : list (list R)) (t : list (list nat)) : list (option R) :=
  flat_map (fun r => cell_angles64 acos64 (pts_of p r)) t.
(** mesh_generator.py l.532-541 *)
Definition slivers64 (acos64 : R -> R) (p : list (list R)) (t : list (list nat)) (lo hi : R) : list nat :=
  unique_nat (map (fun i => (i / 6)%nat) (argwhere (out_of_bounds lo hi) 0 (calc_dihedral_angles64 acos64 p t))).
