(** Model of SeismicMesh/geometry/signed_distance_functions.py and of the rectangle/block distances of
    SeismicMesh/geometry/cpp/fast_geometry.cpp.  Points are rows (lists of coordinates).  Reals instead of binary64,
    except that drectangle/dblock take a rounding operator. *)
From Coq Require Import List ZArith Reals Bool.
From Verif Require Import Model.Base.
Import ListNotations.
Local Open Scope R_scope.

Notation pt := (list R) (only parsing).

Definition map2 {A B C} (f : A -> B -> C) (l : list A) (m : list B) : list C :=
  map (fun p => f (fst p) (snd p)) (combine l m).
Definition dot (u v : list R) : R := fold_right Rplus 0 (map2 Rmult u v).

(** signed_distance_functions.py l.70-71 *)
Definition length_ (x : list R) : R := sqrt (fold_right Rplus 0 (map (fun t => Rabs t ^ 2) x)).

(** l.74-78: itertools.product of the (min,max) pairs, first coordinate slowest *)
Fixpoint corners (b : list R) : list pt :=
  match b with
  | lo :: hi :: t => flat_map (fun x => map (cons x) (corners t)) [lo; hi]
  | _ => [[]]
  end.

(** ---- primitives (on untransformed points) ---- *)

(** l.596-598 *)
Definition ddisk (xc yc r : R) (p : pt) : R :=
  match p with [x; y] => sqrt ((x - xc) ^ 2 + (y - yc) ^ 2) - r | _ => 0 end.
(** l.601-603 *)
Definition dball (xc yc zc r : R) (p : pt) : R :=
  match p with [x; y; z] => sqrt ((x - xc) ^ 2 + (y - yc) ^ 2 + (z - zc) ^ 2) - r | _ => 0 end.

(** fast_geometry.cpp l.165-185, in rounded arithmetic (negation is exact); std::min(a,b) returns b iff b < a *)
Definition stdmin (a b : R) : R := if Rltb b a then b else a.
Definition c_drectangle (rnd : R -> R) (x1 x2 y1 y2 : R) (p : pt) : R :=
  match p with
  | [x; y] =>
      let sum1 := rnd (- y1 + y) in let sum2 := rnd (y2 - y) in
      let sum3 := rnd (- x1 + x) in let sum4 := rnd (x2 - x) in
      let tmp1 := stdmin sum1 sum2 in let tmp2 := stdmin tmp1 sum3 in - stdmin tmp2 sum4
  | _ => 0
  end.
(** fast_geometry.cpp l.104-134 *)
Definition c_dblock (rnd : R -> R) (x1 x2 y1 y2 z1 z2 : R) (p : pt) : R :=
  match p with
  | [x; y; z] =>
      let sum1 := rnd (- z1 + z) in let sum2 := rnd (z2 - z) in
      let sum3 := rnd (- y1 + y) in let sum4 := rnd (y2 - y) in
      let sum5 := rnd (- x1 + x) in let sum6 := rnd (x2 - x) in
      let tmp1 := stdmin sum1 sum2 in let tmp2 := stdmin tmp1 sum3 in
      let tmp3 := stdmin tmp2 sum4 in let tmp4 := stdmin tmp3 sum5 in - stdmin tmp4 sum6
  | _ => 0
  end.
(** signed_distance_functions.py l.606-612 and 615-623 (np.minimum) *)
Definition drectangle (rnd : R -> R) (x1 x2 y1 y2 : R) (p : pt) : R :=
  match p with
  | [x; y] => - Rmin (Rmin (Rmin (rnd (- y1 + y)) (rnd (y2 - y))) (rnd (- x1 + x))) (rnd (x2 - x))
  | _ => 0
  end.
Definition dblock (rnd : R -> R) (x1 x2 y1 y2 z1 z2 : R) (p : pt) : R :=
  match p with
  | [x; y; z] =>
      - Rmin (Rmin (Rmin (Rmin (Rmin (rnd (- z1 + z)) (rnd (z2 - z))) (rnd (- y1 + y))) (rnd (y2 - y))) (rnd (- x1 + x))) (rnd (x2 - x))
  | _ => 0
  end.

(** l.533-537 *)
Definition dtorus (r1 r2 : R) (p : pt) : R :=
  match p with [x; y; z] => length_ [length_ [x; z] - r1; y] - r2 | _ => 0 end.
(** l.556-563; 0.866025 is the literal in the code *)
Definition dprism (b h : R) (p : pt) : R :=
  match p with
  | [x; y; z] => Rmax (Rabs z - h) (Rmax (Rabs x * (866025 / 1000000) + y * (5 / 10)) (- y) - b * (5 / 10))
  | _ => 0
  end.
(** l.583-590; [hh] is the halved height of l.572 *)
Definition dcylinder (hh r : R) (p : pt) : R :=
  match p with
  | [x; y; z] =>
      let d0 := Rabs (length_ [x; z]) - r in let d1 := Rabs y - hh in
      Rmin (Rmax d0 d1) 0 + length_ [Rmax d0 0; Rmax d1 0]
  | _ => 0
  end.

(** ---- domain objects ---- *)
Record domain := mkDom { d_dim : nat; d_bbox : list R; d_corners : option (list pt); d_eval : pt -> R }.

(** rotate=, stretch=, translate= *)
Record manip := mkManip { m_rot : R * R * R; m_stretch : option (list R); m_trans : option (list R) }.
Definition no_manip : manip := mkManip (0, 0, 0) None None.

(** the argument combinations the theorems range over: rotate=[a,0,0] in 2D, rotate=[a,b,c] in 3D *)
Definition manip2 (s : option (list R)) (a : R) (t : option (list R)) : manip := mkManip (a, 0, 0) s t.
Definition manip3 (s : option (list R)) (a b c : R) (t : option (list R)) : manip := mkManip (a, b, c) s t.

(** l.118-121 *)
Definition scale_back (v : list R) (alpha : R) (x : pt) : pt :=
  let vx := dot v x in map2 (fun vi xi => vx * vi / alpha + (xi - vx * vi)) v x.
(** l.128-129 *)
Definition translate_back (t x : list R) : pt := map2 (fun xi ti => xi - ti) x t.
(** l.132-133 *)
Definition mat_vec (m : list (list R)) (x : pt) : pt := map (fun row => dot row x) m.
Definition transpose2 (m : list (list R)) : list (list R) :=
  map (fun i => map (fun row => nth i row 0) m) (seq 0 (length m)).

(** l.168-173, 192-215 *)
Definition rot2 (a : R) : list (list R) := [[cos a; - sin a]; [sin a; cos a]].
Definition rot_x (a : R) : list (list R) := [[1; 0; 0]; [0; cos a; - sin a]; [0; sin a; cos a]].
Definition rot_y (a : R) : list (list R) := [[cos a; 0; sin a]; [0; 1; 0]; [- sin a; 0; cos a]].
Definition rot_z (a : R) : list (list R) := [[cos a; - sin a; 0]; [sin a; cos a; 0]; [0; 0; 1]].

(** state of the stretch after construction: normalised vector and alpha *)
Definition norm2 (v : list R) : R := sqrt (dot v v).
Definition normalise (v : list R) : list R := map (fun t => t / norm2 v) v.

(** l.89-101.  In 2D only rotation[0] has a matrix (Rx_inv = R.T); non-zero rotation[1], rotation[2] raise
    AttributeError in 2D, so the 2D theorems assume the caller leaves them zero. *)
Definition manipulate (dim : nat) (m : manip) (x : pt) : pt :=
  let '(a, b, c) := m_rot m in
  let x1 := match m_trans m with Some t => translate_back t x | None => x end in
  let x2 := if Reqb a 0 then x1
            else mat_vec (transpose2 (if Nat.eqb dim 2 then rot2 a else rot_x a)) x1 in
  let x3 := if Reqb b 0 then x2 else mat_vec (transpose2 (rot_y b)) x2 in
  let x4 := if Reqb c 0 then x3 else mat_vec (transpose2 (rot_z c)) x3 in
  match m_stretch m with Some v => scale_back (normalise v) (norm2 v) x4 | None => x4 end.

(** (min, max) of every coordinate of a list of points, l.141-155, 178-183, 222-230 *)
Definition image_bbox (dim : nat) (ps : list pt) : list R :=
  flat_map (fun i => [min_list (map (fun p => nth i p 0) ps); max_list (map (fun p => nth i p 0) ps)]) (seq 0 dim).

(** l.137-138 *)
Definition stretch_point (v : list R) (alpha : R) (x : pt) : pt :=
  let vx := dot v x in map2 (fun vi xi => vx * vi * alpha + (xi - vx * vi)) v x.

(** l.130-159; (bbox, corners) *)
Definition build_stretch (dim : nat) (m : manip) (s : list R * option (list pt)) : list R * option (list pt) :=
  match m_stretch m with
  | None => s
  | Some v =>
      let b := image_bbox dim (map (stretch_point (normalise v) (norm2 v)) (corners (fst s))) in
      (b, Some (corners b))
  end.

Definition min3 (x y z : R) : R := Rmin (Rmin x y) z.
Definition max3 (x y z : R) : R := Rmax (Rmax x y) z.
(** l.240-249 *)
Fixpoint merge3 (upper : bool) (bx by_ bz : list R) : list R :=
  match bx, by_, bz with
  | i :: tx, j :: ty, k :: tz => (if upper then max3 i j k else min3 i j k) :: merge3 (negb upper) tx ty tz
  | _, _, _ => []
  end.
(** l.162-254 *)
Definition build_rotation (dim : nat) (m : manip) (s : list R * option (list pt)) : list R * option (list pt) :=
  let '(a, b, c) := m_rot m in
  if Nat.eqb dim 2 then
    if Reqb a 0 then s
    else let bb := image_bbox 2 (map (mat_vec (rot2 a)) (corners (fst s))) in (bb, Some (corners bb))
  else
    if Reqb a 0 && Reqb b 0 && Reqb c 0 then s
    else
      let bx := if Reqb a 0 then fst s else image_bbox 3 (map (mat_vec (rot_x a)) (corners (fst s))) in
      let by_ := if Reqb b 0 then fst s else image_bbox 3 (map (mat_vec (rot_y b)) (corners (fst s))) in
      let bz := if Reqb c 0 then fst s else image_bbox 3 (map (mat_vec (rot_z c)) (corners (fst s))) in
      let bb := merge3 false bx by_ bz in (bb, Some (corners bb)).

(** l.257-280: only the box moves *)
Fixpoint shift_box (b t : list R) : list R :=
  match b, t with
  | lo :: hi :: b', v :: t' => (lo + v) :: (hi + v) :: shift_box b' t'
  | _, _ => []
  end.
Definition build_translation (m : manip) (s : list R * option (list pt)) : list R * option (list pt) :=
  match m_trans m with None => s | Some t => (shift_box (fst s) t, snd s) end.

(** l.104-108 *)
Definition configure (dim : nat) (m : manip) (s : list R * option (list pt)) : list R * option (list pt) :=
  build_translation m (build_rotation dim m (build_stretch dim m s)).

(** a primitive with box b0, initial corners c0 and untransformed distance f *)
Definition make_prim (dim : nat) (m : manip) (b0 : list R) (c0 : option (list pt)) (f : pt -> R) (keep_corners : bool) : domain :=
  let s := configure dim m (b0, c0) in
  mkDom dim (fst s) (if keep_corners then snd s else None) (fun x => f (manipulate dim m x)).

(** l.429-447 *)
Definition Disk (xc yc r : R) (m : manip) : domain :=
  make_prim 2 m [xc - r; xc + r; yc - r; yc + r] None (ddisk xc yc r) false.
(** l.450-471 *)
Definition Ball (xc yc zc r : R) (m : manip) : domain :=
  make_prim 3 m [xc - r; xc + r; yc - r; yc + r; zc - r; zc + r] None (dball xc yc zc r) false.
(** l.474-492 *)
Definition Rectangle (x1 x2 y1 y2 : R) (m : manip) : domain :=
  make_prim 2 m [x1; x2; y1; y2] (Some (corners [x1; x2; y1; y2])) (c_drectangle (fun t => t) x1 x2 y1 y2) true.
(** l.495-519 *)
Definition Cube (x1 x2 y1 y2 z1 z2 : R) (m : manip) : domain :=
  make_prim 3 m [x1; x2; y1; y2; z1; z2] (Some (corners [x1; x2; y1; y2; z1; z2])) (c_dblock (fun t => t) x1 x2 y1 y2 z1 z2) true.
(** l.522-540 (assertion r1 > 0 and r2 > 0 left to the theorems) *)
Definition Torus (r1 r2 : R) (m : manip) : domain :=
  let z := 2 * Rmax r1 r2 in
  make_prim 3 m [-2 * z; 2 * z; -2 * z; 2 * z; -2 * z; 2 * z] None (dtorus r1 r2) false.
(** l.546-563 *)
Definition Prism (b h : R) (m : manip) : domain :=
  make_prim 3 m [- b; b; - b; b; - h; h] None (dprism b h) false.
(** l.569-590 *)
Definition Cylinder (h r : R) (m : manip) : domain :=
  let hh := h / 2 in let sz := Rmax hh r in
  make_prim 3 m [-2 * sz; 2 * sz; -2 * sz; 2 * sz; -2 * sz; 2 * sz] None (dcylinder hh r) false.

(** l.134-136: [object.v /= object.alpha] writes into the caller's float array; new content of that array *)
Definition stretch_array_after (v : list R) : list R := normalise v.

(** ---- set operations ---- *)
(** l.81-86 *)
Definition gather_corners (ds : list domain) : option (list pt) :=
  match flat_map (fun d => match d_corners d with Some c => [c] | None => [] end) ds with
  | [] => None
  | cs => Some (concat cs)
  end.
(** l.310, 350, 390: [geom_dim != 2] compares a list with an int, which is True *)
Definition dims_guard (dims : list nat) : bool := true.
Definition get_all (i : nat) (ds : list domain) : option (list R) :=
  fold_right (fun d acc => obind (nth_error (d_bbox d) i) (fun x => obind acc (fun l => Some (x :: l)))) (Some []) ds.
(** min/max over the operands of box entry i; tuple index error when a box is too short *)
Fixpoint set_bbox (n : nat) (i : nat) (ds : list domain) : result (list R) :=
  match n with
  | O => Ok []
  | S n' =>
      match get_all (2 * i) ds, get_all (2 * i + 1) ds with
      | Some lo, Some hi => rbind (set_bbox n' (S i) ds) (fun t => Ok (min_list lo :: max_list hi :: t))
      | _, _ => Err IndexError
      end
  end.
(** constructors, l.308-329, 348-369, 388-409 *)
Definition set_init (eval : list domain -> pt -> R) (ds : list domain) : result domain :=
  match ds with
  | [] => Err IndexError
  | d0 :: _ =>
      if dims_guard (map d_dim ds) then
        rbind (set_bbox (d_dim d0) 0 ds) (fun b => Ok (mkDom (d_dim d0) b (gather_corners ds) (eval ds)))
      else Err AssertionError
  end.

(** np.minimum.reduce / np.maximum.reduce *)
Definition reduce_ (f : R -> R -> R) (l : list R) : R :=
  match l with [] => 0 | x :: t => fold_left f t x end.

(** l.331-333 *)
Definition smooth_union (k d1 d2 : R) : R :=
  let h := Rmax (k - Rabs (d1 - d2)) 0 in Rmin d1 d2 - h * h * (1 / 4) / k.
(** l.371-373 *)
Definition smooth_intersection (k d1 d2 : R) : R :=
  let h := Rmax (k - Rabs (d1 - d2)) 0 in Rmax d1 d2 + h * h * (1 / 4) / k.
(** l.411-413 *)
Definition smooth_difference (k d1 d2 : R) : R :=
  let h := Rmax (k - Rabs (- d1 - d2)) 0 in Rmax (- d1) d2 + h * h * (1 / 4) / k.

(** values of the operands at a point -> value of the set operation; l.335-340, 375-380, 415-422.
    _loop_call (l.300-304) is the same left fold as reduce. *)
Definition union_vals (k : R) (d : list R) : R :=
  if Reqb k 0 then reduce_ Rmin d else reduce_ (smooth_union k) d.
Definition intersection_vals (k : R) (d : list R) : R :=
  if Reqb k 0 then reduce_ Rmax d else reduce_ (smooth_intersection k) d.
Definition difference_vals (k : R) (d : list R) : R :=
  if Reqb k 0 then reduce_ Rmax (match d with [] => [] | x :: t => x :: map Ropp t end)
  else reduce_ (smooth_difference k) (rev d).

Definition Union (k : R) := set_init (fun ds x => union_vals k (map (fun d => d_eval d x) ds)).
Definition Intersection (k : R) := set_init (fun ds x => intersection_vals k (map (fun d => d_eval d x) ds)).
Definition Difference (k : R) := set_init (fun ds x => difference_vals k (map (fun d => d_eval d x) ds)).

(** ---- Repeat, l.283-294 ---- *)
Definition np_mod (x p : R) : R := x - p * IZR (Int_part (x / p)).
Definition fold_coord (x p : R) : R := np_mod (x + 5 / 10 * p) p - 5 / 10 * p.
Definition repeat_eval (f : pt -> R) (x1 x2 y1 y2 z1 z2 : R) (period x : pt) : R :=
  Rmax (f (map2 fold_coord x period)) (c_dblock (fun t => t) x1 x2 y1 y2 z1 z2 x).
Definition Repeat (x1 x2 y1 y2 z1 z2 : R) (d : domain) (period : pt) : domain :=
  mkDom 3 [x1; x2; y1; y2; z1; z2] None (repeat_eval (d_eval d) x1 x2 y1 y2 z1 z2 period).

(** mesh_generator.py l.426-428: corners kept as fixed points *)
Definition kept_corners (fd : pt -> R) (deps : R) (cs : list pt) : list pt :=
  filter (fun c => Rgtb (fd c) (-1000 * deps)) cs.
