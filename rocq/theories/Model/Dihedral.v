(** Model of calc_dihedral_angles (geometry/cpp/fast_geometry.cpp l.351-457) and _calc_dihedral_angles
    (generation/mesh_generator.py l.532-541).  Exact real arithmetic; None is the NaN produced by 0/0, x/0 and everything after it. *)
From Coq Require Import List ZArith Reals Bool Arith.
From Verif Require Import Model.Base Model.SDF Model.Mesh Model.Formulas.
Import ListNotations.
Local Open Scope R_scope.

(** l2_norm l.79-85 *)
Definition l2_norm (u : list R) : R := sqrt (fold_right Rplus 0 (map (fun x => x * x) u)).
(** cross_product l.87-94 *)
Definition cross_product (a b : list R) : list R :=
  let A i := nth i a 0 in let B i := nth i b 0 in
  [A 1%nat * B 2%nat - A 2%nat * B 1%nat; A 2%nat * B 0%nat - A 0%nat * B 2%nat; A 0%nat * B 1%nat - A 1%nat * B 0%nat].
(** dot_product l.96-102 *)
Definition dot_product (a b : list R) : R := fold_right Rplus 0 (map2 Rmult a b).
(** l.376-414, for the corners numbered i0, i1 (the edge), i2, i3 *)
Definition dihedral_angle (q0 q1 q2 q3 : list R) : option R :=
  let v1 := map2 Rminus q1 q0 in let v2 := map2 Rminus q2 q0 in let v3 := map2 Rminus q3 q0 in
  let v1_div := l2_norm v1 in let v2_div := l2_norm v2 in let v3_div := l2_norm v3 in
  if Reqb v1_div 0 || Reqb v2_div 0 || Reqb v3_div 0 then None
  else
    let v1 := map (fun x => x / v1_div) v1 in let v2 := map (fun x => x / v2_div) v2 in let v3 := map (fun x => x / v3_div) v3 in
    let den := l2_norm (cross_product v1 v2) * l2_norm (cross_product v1 v3) in
    if Reqb den 0 then None
    else Some (acos ((dot_product v2 v3 - dot_product v1 v2 * dot_product v1 v3) / den)).
(** l.354-355 *)
Definition dh_edges : list (nat * nat) := [(2,3);(1,3);(1,2);(0,3);(0,2);(0,1)]%nat.
(** l.368-372: the six angles of a cell with corners s *)
Definition cell_angles (s : list (list R)) : list (option R) :=
  map (fun i => let e := nth i dh_edges (0,0)%nat in let o := nth (5 - i) dh_edges (0,0)%nat in
     dihedral_angle (nth (fst e) s []) (nth (snd e) s []) (nth (fst o) s []) (nth (snd o) s [])) (seq 0 6).
(** l.351-418: the angle array, six entries per cell *)
Definition calc_dihedral_angles (p : list (list R)) (t : list (list nat)) : list (option R) :=
  flat_map (fun r => cell_angles (pts_of p r)) t.
(** mesh_generator.py l.535-537: comparisons with NaN are false *)
Definition out_of_bounds (lo hi : R) (a : option R) : bool := match a with None => false | Some x => Rltb x lo || Rltb hi x end.
Fixpoint argwhere {A} (f : A -> bool) (i : nat) (l : list A) : list nat :=
  match l with [] => [] | x :: t => if f x then i :: argwhere f (S i) t else argwhere f (S i) t end.
(** l.532-541: the element numbers (first component) *)
Definition slivers (p : list (list R)) (t : list (list nat)) (lo hi : R) : list nat :=
  unique_nat (map (fun i => (i / 6)%nat) (argwhere (out_of_bounds lo hi) 0 (calc_dihedral_angles p t))).
