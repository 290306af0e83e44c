(** Changing the unit of length: every coordinate multiplied by c. *)
From Coq Require Import Reals List.
From Verif Require Import Model.Base Model.SDF Model.Mesh Model.Simplex Model.Laplace Model.Forces Model.Newton Model.Generator.
Import ListNotations.
Local Open Scope R_scope.

Definition sc (c : R) (x : list R) : list R := map (Rmult c) x.
Definition scp (c : R) (p : list pt) : list pt := map (sc c) p.
(** a mesh, or the exception, with the vertices in the new unit *)
Definition sc_result (c : R) (r : result (list pt * list row)) : result (list pt * list row) :=
  match r with Ok (p, t) => Ok (scp c p, t) | Err e => Err e end.
Definition sc_outcome (c : R) (o : option (result (list pt * list row) * nat)) : option (result (list pt * list row) * nat) :=
  match o with Some (r, k) => Some (sc_result c r, k) | None => None end.
(** g is f in the new unit: a length as a function of a position *)
Definition same_length (c : R) (f g : pt -> R) : Prop := forall x, g (sc c x) = c * f x.

Inductive same_domain (c : R) : dom_arg -> dom_arg -> Prop :=
| same_object : forall o o', d_bbox o' = sc c (d_bbox o) -> d_corners o' = option_map (scp c) (d_corners o) ->
    same_length c (d_eval o) (d_eval o') -> same_domain c (DObject o) (DObject o')
| same_function : forall f f' b, same_length c f f' -> same_domain c (DFunction f b) (DFunction f' (sc c b)).
Inductive same_size (c : R) : size_arg -> size_arg -> Prop :=
| size_object : forall b h f f', same_length c f f' -> same_size c (SObject b h f) (SObject (sc c b) (c * h) f')
| size_function : forall f f', same_length c f f' -> same_size c (SFunction f) (SFunction f')
| size_scalar : forall h, same_size c (SScalar h) (SScalar (c * h)).
Definition same_levels (c : R) (a b : option (list (pt -> R))) : Prop :=
  match a, b with None, None => True | Some l, Some m => Forall2 (same_length c) l m | _, _ => False end.
(** the lengths among the options in the new unit, everything else equal *)
Definition same_options (c : R) (o o' : gen_opts) : Prop :=
  o_pfix o' = scp c (o_pfix o) /\ o_points o' = option_map (scp c) (o_points o) /\ same_levels c (o_subdomains o) (o_subdomains o') /\
  o_h0 o' = option_map (Rmult c) (o_h0 o) /\
  o_max_iter o' = o_max_iter o /\ o_perform_checks o' = o_perform_checks o /\ o_delta_t o' = o_delta_t o /\ o_geps_mult o' = o_geps_mult o /\
  o_mesh_improvement o' = o_mesh_improvement o /\ o_r0m_is_h0 o' = o_r0m_is_h0 o.
(** the called libraries do not depend on the unit: the triangulation of the scaled points is the scaled triangulation, points that
    are taken for one stay so, the solution of the smoothing system scales; the random numbers are those of the seed *)
Definition same_backend (c : R) (B B' : backend) : Prop :=
  (forall k p, b_tri B' k (scp c p) = (scp c (fst (b_tri B k p)), snd (b_tri B k p))) /\
  (forall p x, b_key B' (scp c p) (sc c x) = b_key B p x) /\
  (forall p t, b_solve B' (scp c p) t = scp c (b_solve B p t)) /\
  (forall l, b_uniqK B' l = b_uniqK B l) /\ (forall l, b_uniqR B' l = b_uniqR B l) /\ (forall t, b_ve B' t = b_ve B t) /\ (forall n, b_rand B' n = b_rand B n).

(** ---- the two places where the code mixes units ---- *)
(** no bar of the mesh has length 0 (a zero length is replaced by the machine epsilon, whatever the unit) *)
Definition no_zero_bars (dim : nat) (p : list pt) (t : list row) : Prop :=
  forall e, In e (bars dim t) -> sub_len (nth (fst e) p []) (nth (snd e) p []) <> 0.
(** squared slope of a distance function by forward differences: a number without unit *)
Definition slope2 (fd : pt -> R) (deps : R) (x : pt) : R := rtotal (map (fun v => v * v) (dgrads fd deps x)).
(** it is compared with the length deps, which replaces a smaller value: the floor is not reached in either unit, or does not matter *)
Definition floor_free (c : R) (fd : pt -> R) (deps : R) (x : pt) : Prop :=
  fd x = 0 \/ slope2 fd deps x = 0 \/ deps <= slope2 fd deps x /\ c * deps <= slope2 fd deps x.
(** the points projected back to the boundary by one sweep, by the sweeps over all levels, by the five sweeps of the last iteration *)
Definition project_calm (c : R) (fd : pt -> R) (deps hmin : R) (idx : nat) (p : list pt) : Prop :=
  forall x, In x p -> outside_band hmin idx (fd x) = true -> floor_free c fd deps x.
Fixpoint levels_calm (c deps hmin : R) (idx : nat) (levels : list (pt -> R)) (p : list pt) : Prop :=
  match levels with [] => True | fd :: ls => project_calm c fd deps hmin idx p /\ levels_calm c deps hmin (S idx) ls (project_back fd deps hmin idx p) end.
Fixpoint improve_calm (c : R) (fd : pt -> R) (deps : R) (bid : list nat) (its : list nat) (alpha : R) (p : list pt) : Prop :=
  match its with
  | [] => True
  | it :: rest =>
      (forall v, (v < length p)%nat -> existsb (Nat.eqb v) bid = true -> floor_free c fd deps (nth v p [])) /\
      improve_calm c fd deps bid rest (alpha / INR (S it))
        (map (fun v => if existsb (Nat.eqb v) bid then newton fd deps alpha (nth v p []) else nth v p []) (seq 0 (length p)))
  end.
Definition finish_calm (c : R) (B : backend) (P : problem) (p : list pt) (t : list row) : Prop :=
  match termination B (g_dim P) (match g_subs P with None => g_improve P | Some _ => false end) (g_checks P) p t with
  | Ok (p2, t2) => improve_calm c (g_fd P) (g_deps P) (get_boundary_vertices (b_uniqR B) (g_dim P) t2) (seq 0 5) 1 p2
  | Err _ => True
  end.
(** neither place is met by a run *)
Fixpoint calm (c : R) (B : backend) (P : problem) (fuel count : nat) (p : list pt) : Prop :=
  match fuel with
  | O => True
  | S k =>
      let '(p1, t0) := b_tri B count p in
      match p1 with
      | [] => True
      | _ =>
          let t1 := remove_outside (g_dim P) (g_fd P) (g_geps P) p1 t0 in
          if Reqb (INR count) (g_max_iter P - 1) then finish_calm c B P p1 t1
          else
            no_zero_bars (g_dim P) p1 t1 /\
            let F := zero_rows (ifix_of P p1) (compute_forces (g_dim P) (g_fh P) (L0mult (g_dim P)) p1 t1) in
            if Rltb (max_move (g_delta_t P) F) (1000 * g_h0 P)
            then levels_calm c (g_deps P) (g_h0 P) 0 (g_fd P :: match g_subs P with Some l => l | None => [] end)
                   (force_step (g_dim P) (g_fh P) (L0mult (g_dim P)) (g_delta_t P) (ifix_of P p1) p1 t1) /\
                 calm c B P k (S count) (next_points P p1 t1)
            else True
      end
  end.
Definition calm_run (c : R) (B : backend) (d : dom_arg) (s : size_arg) (o : gen_opts) (fuel : nat) : Prop :=
  match prepare B d s o with Ok (P, p) => calm c B P fuel 0 p | Err _ => True end.
