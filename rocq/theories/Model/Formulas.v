(** Model of the remaining per-simplex formulas: the determinants and gradients of geometry/cpp/fast_geometry.cpp, the
    point-in-simplex tests, get_centroids, do_any_overlap and calc_re_ratios of geometry/utils.py.  Reals instead of binary64. *)
From Coq Require Import List ZArith Reals Bool Arith.
From Verif Require Import Model.Base Model.SDF Model.Simplex Model.Mesh.
Import ListNotations.
Local Open Scope R_scope.

(** c_calc_3x3determinant, fast_geometry.cpp l.455-462; m is the matrix row by row (memcpy of a C-ordered array, l.470-473) *)
Definition det3 (m : list R) : R :=
  match m with
  | [m0; m1; m2; m3; m4; m5; m6; m7; m8] =>
      m0 * (m4 * m8 - m7 * m5) - m1 * (m3 * m8 - m6 * m5) + m2 * (m3 * m7 - m6 * m4)
  | _ => 0
  end.
(** c_calc_4x4determinant, fast_geometry.cpp l.482-495 *)
Definition det4 (m : list R) : R :=
  match m with
  | [m0; m1; m2; m3; m4; m5; m6; m7; m8; m9; m10; m11; m12; m13; m14; m15] =>
      m12 * m9 * m6 * m3 - m8 * m13 * m6 * m3 - m12 * m5 * m10 * m3 + m4 * m13 * m10 * m3 +
      m8 * m5 * m14 * m3 - m4 * m9 * m14 * m3 - m12 * m9 * m2 * m7 + m8 * m13 * m2 * m7 +
      m12 * m1 * m10 * m7 - m0 * m13 * m10 * m7 - m8 * m1 * m14 * m7 + m0 * m9 * m14 * m7 +
      m12 * m5 * m2 * m11 - m4 * m13 * m2 * m11 - m12 * m1 * m6 * m11 + m0 * m13 * m6 * m11 +
      m4 * m1 * m14 * m11 - m0 * m5 * m14 * m11 - m8 * m5 * m2 * m15 + m4 * m9 * m2 * m15 +
      m8 * m1 * m6 * m15 - m0 * m9 * m6 * m15 - m4 * m1 * m10 * m15 + m0 * m5 * m10 * m15
  | _ => 0
  end.

(** c_calc_volume_grad, fast_geometry.cpp l.515-544: the body of the loop, for one tetrahedron *)
Definition volume_grad (p1 p2 p3 : list R) : list R :=
  match p1, p2, p3 with
  | [x1; y1; z1], [x2; y2; z2], [x3; y3; z3] =>
      [1 / 6 * (y2 * z3 + y1 * (z2 - z3) - y3 * z2 - z1 * (y2 - y3));
       1 / 6 * (- x2 * z3 - x1 * (z2 - z3) + x3 * z2 + z1 * (x2 - x3));
       1 / 6 * (x2 * y3 + x1 * (y2 - y3) - x3 * y2 - y1 * (x2 - x3))]
  | _, _, _ => []
  end.

(** c_calc_circumsphere_grad, fast_geometry.cpp l.601-662: the body of the loop, for one tetrahedron.  Division by a = 0 (flat
    tetrahedron) gives inf/NaN in the code; the theorems exclude it. *)
Definition circumsphere_grad (p0 p1 p2 p3 : list R) : list R :=
  match p0, p1, p2, p3 with
  | [p0x; p0y; p0z], [p1x; p1y; p1z], [p2x; p2y; p2z], [p3x; p3y; p3z] =>
      let x1 := p0x - p3x in let y1 := p0y - p3y in let z1 := p0z - p3z in
      let x2 := p1x - p3x in let y2 := p1y - p3y in let z2 := p1z - p3z in
      let x3 := p2x - p3x in let y3 := p2y - p3y in let z3 := p2z - p3z in
      let sq_p1 := x1 * x1 + y1 * y1 + z1 * z1 in
      let sq_p2 := x2 * x2 + y2 * y2 + z2 * z2 in
      let sq_p3 := x3 * x3 + y3 * y3 + z3 * z3 in
      let da_dx := y2 * z3 - y3 * z2 in
      let da_dy := z2 * x3 - x2 * z3 in
      let da_dz := x2 * y3 - x3 * y2 in
      let dDx_dx := - 2 * x1 * da_dx in
      let dDx_dy := - 2 * y1 * da_dx + sq_p2 * z3 - sq_p3 * z2 in
      let dDx_dz := - 2 * z1 * da_dx - sq_p2 * y3 + sq_p3 * y2 in
      let dDy_dx := - 2 * x1 * da_dy - sq_p2 * z3 + sq_p3 * z2 in
      let dDy_dy := - 2 * y1 * da_dy in
      let dDy_dz := - 2 * z1 * da_dy + sq_p2 * x3 - sq_p3 * x2 in
      let dDz_dx := - 2 * x1 * da_dz + sq_p2 * y3 - sq_p3 * y2 in
      let dDz_dy := - 2 * y1 * da_dz - sq_p2 * x3 + sq_p3 * x2 in
      let dDz_dz := - 2 * z1 * da_dz in
      let a := x1 * da_dx + y1 * da_dy + z1 * da_dz in
      let Dx := - sq_p1 * da_dx + y1 * (sq_p2 * z3 - sq_p3 * z2) - z1 * (sq_p2 * y3 - sq_p3 * y2) in
      let Dy := - sq_p1 * da_dy - x1 * (sq_p2 * z3 - sq_p3 * z2) + z1 * (sq_p2 * x3 - sq_p3 * x2) in
      let Dz := - sq_p1 * da_dz + x1 * (sq_p2 * y3 - sq_p3 * y2) - y1 * (sq_p2 * x3 - sq_p3 * x2) in
      let sum_sqD := Dx * Dx + Dy * Dy + Dz * Dz in
      [(Dx * dDx_dx + Dy * dDy_dx + Dz * dDz_dx) / (2 * a * a) - (da_dx * sum_sqD) / (2 * a * a * a);
       (Dx * dDx_dy + Dy * dDy_dy + Dz * dDz_dy) / (2 * a * a) - (da_dy * sum_sqD) / (2 * a * a * a);
       (Dx * dDx_dz + Dy * dDy_dz + Dz * dDz_dz) / (2 * a * a) - (da_dz * sum_sqD) / (2 * a * a * a)]
  | _, _, _, _ => []
  end.

(** vertex_in_entity2, geometry/utils.py l.657-679.  With a zero denominator numpy's quotients are inf or NaN and the chain of
    comparisons is False. *)
Definition vertex_in_entity2 (v e : list R) : bool :=
  match v, e with
  | [x; y], [x1; y1; x2; y2; x3; y3] =>
      let den := (y2 - y3) * (x1 - x3) + (x3 - x2) * (y1 - y3) in
      if Reqb den 0 then false
      else
        let a := ((y2 - y3) * (x - x3) + (x3 - x2) * (y - y3)) / den in
        let b := ((y3 - y1) * (x - x3) + (x1 - x3) * (y - y3)) / den in
        let c := 1 - a - b in
        Rleb 0 a && Rleb a 1 && Rleb 0 b && Rleb b 1 && Rleb 0 c && Rleb c 1
  | _, _ => false
  end.

(** vertex_in_entity3, l.682-726 *)
Definition rsign (x : R) : Z := if Rltb 0 x then 1%Z else if Rltb x 0 then (-1)%Z else 0%Z.
Definition hom (p : list R) : list R := p ++ [1].
Definition vertex_in_entity3 (v e : list R) : bool :=
  match e with
  | [x1; y1; z1; x2; y2; z2; x3; y3; z3; x4; y4; z4] =>
      let p1 := [x1; y1; z1] in let p2 := [x2; y2; z2] in let p3 := [x3; y3; z3] in let p4 := [x4; y4; z4] in
      let s0 := rsign (det4 (hom p1 ++ hom p2 ++ hom p3 ++ hom p4)) in
      let s1 := rsign (det4 (hom v ++ hom p2 ++ hom p3 ++ hom p4)) in
      if negb (s1 =? s0)%Z then false else
      let s2 := rsign (det4 (hom p1 ++ hom v ++ hom p3 ++ hom p4)) in
      if negb (s2 =? s1)%Z then false else
      let s3 := rsign (det4 (hom p1 ++ hom p2 ++ hom v ++ hom p4)) in
      if negb (s3 =? s2)%Z then false else
      let s4 := rsign (det4 (hom p1 ++ hom p2 ++ hom p3 ++ hom v)) in
      if negb (s4 =? s3)%Z then false else
      let signs := [s0; s1; s2; s3; s4] in
      forallb (Z.eqb (-1)) signs || forallb (Z.eqb 1) signs
  | _ => false
  end.

(** get_centroids, l.729-742, for one entity *)
Definition centroid (dim : nat) (corners : list (list R)) : list R :=
  map (fun j => fold_right Rplus 0 (map (fun q => nth j q 0) corners) / INR (S dim)) (seq 0 dim).
(** do_any_overlap, l.745-817.  [ve]: the sorted pair list of vertex_to_entities (any order argsort may give); the progress
    and alert messages are not modelled. *)
Definition pts_of (p : list (list R)) (r : list nat) : list (list R) := map (fun v => nth v p []) r.
Definition in_entity (dim : nat) (c : list R) (p : list (list R)) (r : list nat) : bool :=
  if (dim =? 2)%nat then vertex_in_entity2 c (concat (pts_of p r))
  else if (dim =? 3)%nat then vertex_in_entity3 c (concat (pts_of p r))
  else false.
Definition do_any_overlap (dim : nat) (p : list (list R)) (t : list (list nat)) (ve : list (nat * nat)) : list (nat * nat) :=
  let '(vtoe, ptr) := vtoe_result ve in
  flat_map (fun ie =>
    let cent := centroid dim (pts_of p (nth ie t [])) in
    let neis := flat_map (fun v => slice vtoe (nth v ptr O) (nth (S v) ptr O)) (nth ie t []) in
    flat_map (fun ele =>
      if (ie =? ele)%nat then []
      else if in_entity dim cent p (nth ele t []) then [(ie, ele)] else []) neis)
  (seq 0 (length t)).

(** calc_re_ratios, l.17-54.  [ball]: CGAL's squared_radius of the circumscribed circle / sphere of three / four points
    (unspecified for degenerate ones).  _circumballs2 (delaunay.cpp l.143-150) is given the 3n x 2 array of corner points but copies only
    shape()[0] = 3n of its 6n numbers, i.e. three per triangle, and c_circumballs2 (l.29-46) then reads six per triangle: the result has the
    squared radii of the first (3n)/6 triangles.  _circumballs3 (l.166-173) copies all the numbers. *)
Definition min_edge (p : list (list R)) (dim : nat) (r : list nat) : R :=
  min_list (map (fun e => sub_len (nth (nth 0 e O) p []) (nth (nth 1 e O) p []))
    (map (fun ix => pick ix r) ([[0;1];[1;2];[2;0]] ++ (if (dim =? 3)%nat then [[0;3];[1;3];[2;3]] else []))%nat)).
(** numpy broadcasting of a one-dimensional quotient *)
Definition np_div (a b : list R) : result (list R) :=
  if (length a =? length b)%nat then Ok (map2 Rdiv a b)
  else match a, b with
       | [x], _ => Ok (map (fun y => x / y) b)
       | _, [y] => Ok (map (fun x => x / y) a)
       | _, _ => Err ValueError
       end.
Definition calc_re_ratios (ball : list (list R) -> R) (dim : nat) (p : list (list R)) (t : list (list nat)) : result (list R) :=
  if (dim =? 2)%nat then
    let r := map (fun e => ball (pts_of p e)) (firstn ((3 * length t) / 6) t) in
    np_div (map sqrt r) (map (min_edge p 2) t)
  else if (dim =? 3)%nat then
    np_div (map (fun e => sqrt (ball (pts_of p e))) t) (map (min_edge p 3) t)
  else Err ValueError.
