(** Domains built from the solids of the library and nested set operations; functions of bounded slope. *)
From Coq Require Import List Reals.
From Verif Require Import Model.Base Model.SDF Spec.Geom Spec.Transform.
Import ListNotations.
Local Open Scope R_scope.

(** a stretch argument shrinks by at most the factor L: absent, or a vector of the right length and of norm at least 1/L *)
Definition shrinks_by (n : nat) (L : R) (o : option (list R)) : Prop :=
  match o with None => True | Some w => length w = n /\ 1 <= L * edist w (map (fun _ => 0) w) end.
(** the same value in mirrored points *)
Definition mirror_symmetric (f : list R -> R) : Prop := forall x y z, f [x; y; z] = f [Rabs x; Rabs y; Rabs z].
(** every solid, stretched, rotated and translated in any way; Union, Intersection and Difference, sharp (k = 0) or smooth, of any
    solids of this kind; Repeat of a mirror-symmetric one *)
Inductive solid (L : R) : nat -> domain -> Prop :=
| s_disk xc yc r s a t : shrinks_by 2 L s -> trans_ok 2 t -> solid L 2 (Disk xc yc r (manip2 s a t))
| s_rectangle x1 x2 y1 y2 s a t : shrinks_by 2 L s -> trans_ok 2 t -> solid L 2 (Rectangle x1 x2 y1 y2 (manip2 s a t))
| s_ball xc yc zc r s a b c t : shrinks_by 3 L s -> trans_ok 3 t -> solid L 3 (Ball xc yc zc r (manip3 s a b c t))
| s_cube x1 x2 y1 y2 z1 z2 s a b c t : shrinks_by 3 L s -> trans_ok 3 t -> solid L 3 (Cube x1 x2 y1 y2 z1 z2 (manip3 s a b c t))
| s_torus r1 r2 s a b c t : shrinks_by 3 L s -> trans_ok 3 t -> solid L 3 (Torus r1 r2 (manip3 s a b c t))
| s_prism w h s a b c t : shrinks_by 3 L s -> trans_ok 3 t -> solid L 3 (Prism w h (manip3 s a b c t))
| s_cylinder h r s a b c t : shrinks_by 3 L s -> trans_ok 3 t -> solid L 3 (Cylinder h r (manip3 s a b c t))
| s_union k n ds d : 0 <= k -> (forall e, In e ds -> solid L n e) -> Union k ds = Ok d -> solid L n d
| s_intersection k n ds d : 0 <= k -> (forall e, In e ds -> solid L n e) -> Intersection k ds = Ok d -> solid L n d
| s_difference k n ds d : 0 <= k -> (forall e, In e ds -> solid L n e) -> Difference k ds = Ok d -> solid L n d
| s_repeat x1 x2 y1 y2 z1 z2 d px py pz : solid L 3 d -> mirror_symmetric (d_eval d) -> 0 < px -> 0 < py -> 0 < pz -> solid L 3 (Repeat x1 x2 y1 y2 z1 z2 d [px; py; pz]).

(** slope at most L *)
Definition slope_le (n : nat) (L : R) (f : list R -> R) : Prop :=
  forall x y, length x = n -> length y = n -> Rabs (f x - f y) <= L * edist x y.
(** the point at parameter t of the segment from x to y *)
Fixpoint on_segment (t : R) (x y : list R) : list R :=
  match x, y with a :: x', b :: y' => (a + t * (b - a)) :: on_segment t x' y' | _, _ => [] end.
(** a convex combination with weights w of the vertices p[r] *)
Definition mix (n : nat) (p : list (list R)) (r : list nat) (w : list R) : list R :=
  map (fun i => fold_right Rplus 0 (map (fun jw => snd jw * nth i (nth (fst jw) p []) 0) (combine r w))) (seq 0 n).
