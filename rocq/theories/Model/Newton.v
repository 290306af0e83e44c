(** Newton projections of generation/mesh_generator.py l.741-784.  Reals for binary64; deps > 0 is assumed wherever a
    division by it matters. *)
From Coq Require Import Reals List Arith Bool.
From Verif Require Import Model.Base Model.SDF Model.Mesh Model.Laplace.
Import ListNotations.
Local Open Scope R_scope.

(** l.749-752, 776-779: deps along axis i *)
Definition deps_vec (dim : nat) (deps : R) (i : nat) : list R := map (fun k => if (k =? i)%nat then deps else 0) (seq 0 dim).
(** l.754, 781: forward differences, for one point *)
Definition dgrads (fd : pt -> R) (deps : R) (x : pt) : list R :=
  map (fun i => (fd (map2 Rplus x (deps_vec (length x) deps i)) - fd x) / deps) (seq 0 (length x)).
(** l.755-756, 782-783: squared norm, floored at deps *)
Definition dgrad2 (deps : R) (g : list R) : R := let s := rtotal (map (fun v => v * v) g) in if Rltb s deps then deps else s.
(** l.757 (any alpha), 784 (alpha = 1) *)
Definition newton (fd : pt -> R) (deps alpha : R) (x : pt) : pt :=
  let g := dgrads fd deps x in map2 (fun xi gi => xi - alpha * (fd x * gi / dgrad2 deps g)) x g.
(** _project_points_back_newton, l.762-785: which points move (l.768-772) *)
Definition outside_band (hmin : R) (idx : nat) (d : R) : bool :=
  if (idx =? 0)%nat then Rltb 0 d else Rltb 0 d && Rltb d (hmin / (15 / 10)).
Definition project_back (fd : pt -> R) (deps hmin : R) (idx : nat) (p : list pt) : list pt :=
  map (fun x => if outside_band hmin idx (fd x) then newton fd deps 1 x else x) p.
(** generate_mesh l.500-501: one projection per level, the domain first *)
Fixpoint project_levels (deps hmin : R) (idx : nat) (levels : list (pt -> R)) (p : list pt) : list pt :=
  match levels with [] => p | fd :: ls => project_levels deps hmin (S idx) ls (project_back fd deps hmin idx p) end.
(** _improve_level_set_newton, l.741-759: five sweeps over the boundary vertices; alpha /= iteration + 1 (l.758).  The
    tolerance argument is not used by the code.  np.unique of an empty boundary is a float array: IndexError (l.747). *)
Fixpoint improve_loop (fd : pt -> R) (deps : R) (bid : list nat) (its : list nat) (alpha : R) (p : list pt) : list pt :=
  match its with
  | [] => p
  | it :: rest =>
      let p' := map (fun v => if existsb (Nat.eqb v) bid then newton fd deps alpha (nth v p []) else nth v p []) (seq 0 (length p)) in
      improve_loop fd deps bid rest (alpha / INR (S it)) p'
  end.
Definition improve_level_set (uniq : list row -> list row) (fd : pt -> R) (deps : R) (dim : nat) (p : list pt) (t : list row) : result (list pt) :=
  match get_boundary_vertices uniq dim t with
  | [] => Err IndexError
  | bid => Ok (improve_loop fd deps bid (seq 0 5) 1 p)
  end.
