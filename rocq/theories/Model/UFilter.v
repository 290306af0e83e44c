(** scipy.ndimage.uniform_filter(input, size) as called in sizing/mesh_size_function.py l.440-441 (default mode 'reflect', origin 0),
    on arrays of floats, with exact arithmetic: one moving average per axis, axis 0 first; axes whose window is not larger than
    one are left alone; the window of w samples of sample i is i - w//2, ..., i - w//2 + w - 1.
    This models the library, not code of /repo. *)
From Coq Require Import List ZArith Reals Bool.
From Verif Require Import Model.Base Model.Sizing.
Import ListNotations.
Local Open Scope R_scope.

(** position in a line of n samples continued by reflection: (d c b a | a b c d | d c b a) *)
Definition reflect (n : nat) (i : Z) : nat :=
  let m := Z.to_nat (i mod (2 * Z.of_nat n)) in if (m <? n)%nat then m else (2 * n - 1 - m)%nat.
(** uniform_filter1d on one line *)
Definition mean_line (w n : nat) (f : nat -> R) (i : nat) : R :=
  fold_right Rplus 0 (map (fun j => f (reflect n (Z.of_nat i - Z.of_nat (w / 2) + Z.of_nat j))) (seq 0 w)) / INR w.
Definition mean0 (w : nat) (a : garr) : garr := mkArr (adim a) (n0 a) (n1 a) (n2 a) (fun i j k => mean_line w (n0 a) (fun i' => av a i' j k) i).
Definition mean1 (w : nat) (a : garr) : garr := mkArr (adim a) (n0 a) (n1 a) (n2 a) (fun i j k => mean_line w (n1 a) (fun j' => av a i j' k) j).
Definition mean2 (w : nat) (a : garr) : garr := mkArr (adim a) (n0 a) (n1 a) (n2 a) (fun i j k => mean_line w (n2 a) (fun k' => av a i j k') k).
(** int(size) if size > 1 *)
Definition along (s : R) (F : nat -> garr -> garr) (a : garr) : garr := if Rltb 1 s then F (int_of s) a else a.
(** [win]: one window per axis (two in 2D) *)
Definition uniform_filter (win : list R) (a : garr) : garr :=
  along (nth 2 win 0) mean2 (along (nth 1 win 0) mean1 (along (nth 0 win 0) mean0 a)).
(** mesh_size_function.py l.435-438: a scalar stencil_size is used for every axis *)
Inductive stencil := Scalar (s : R) | PerAxis (l : list R).
Definition windows (st : stencil) (vp : garr) : list R := match st with Scalar s => repeat s (adim vp) | PerAxis l => l end.
