(** Textbook forward maps of the plane and of space: stretch along a vector, rotations, translation. *)
From Coq Require Import List Reals.
Import ListNotations.
Local Open Scope R_scope.

Definition rot2_pt (a : R) (p : list R) : list R :=
  match p with [x; y] => [cos a * x - sin a * y; sin a * x + cos a * y] | _ => p end.
Definition rotx_pt (a : R) (p : list R) : list R :=
  match p with [x; y; z] => [x; cos a * y - sin a * z; sin a * y + cos a * z] | _ => p end.
Definition roty_pt (a : R) (p : list R) : list R :=
  match p with [x; y; z] => [cos a * x + sin a * z; y; - sin a * x + cos a * z] | _ => p end.
Definition rotz_pt (a : R) (p : list R) : list R :=
  match p with [x; y; z] => [cos a * x - sin a * y; sin a * x + cos a * y; z] | _ => p end.
Definition translate_pt (t p : list R) : list R :=
  match t, p with
  | [a; b], [x; y] => [x + a; y + b]
  | [a; b; c], [x; y; z] => [x + a; y + b; z + c]
  | _, _ => p
  end.
(** the component along w is multiplied by |w|, the orthogonal component is kept *)
Definition stretch_pt (w p : list R) : list R :=
  match w, p with
  | [a; b], [x; y] =>
      let n2 := a * a + b * b in let s := (sqrt n2 - 1) * (a * x + b * y) / n2 in [x + s * a; y + s * b]
  | [a; b; c], [x; y; z] =>
      let n2 := a * a + b * b + c * c in let s := (sqrt n2 - 1) * (a * x + b * y + c * z) / n2 in
      [x + s * a; y + s * b; z + s * c]
  | _, _ => p
  end.
Definition opt_pt (f : list R -> list R -> list R) (o : option (list R)) (p : list R) : list R :=
  match o with Some v => f v p | None => p end.
(** stretch, then rotate, then translate *)
Definition forward2 (stretch : option (list R)) (a : R) (trans : option (list R)) (p : list R) : list R :=
  opt_pt translate_pt trans (rot2_pt a (opt_pt stretch_pt stretch p)).
Definition forward3 (stretch : option (list R)) (a b c : R) (trans : option (list R)) (p : list R) : list R :=
  opt_pt translate_pt trans (rotx_pt a (roty_pt b (rotz_pt c (opt_pt stretch_pt stretch p)))).
(** a stretch argument: absent, or a non-zero vector of the right length; a translation: absent or of the right length *)
Definition stretch_ok (n : nat) (o : option (list R)) : Prop :=
  match o with None => True | Some w => length w = n /\ Exists (fun t => t <> 0) w end.
Definition trans_ok (n : nat) (o : option (list R)) : Prop := match o with None => True | Some t => length t = n end.
(** at most one rotation angle is non-zero *)
Definition one_axis (a b c : R) : Prop := (b = 0 /\ c = 0) \/ (a = 0 /\ c = 0) \/ (a = 0 /\ b = 0).
