(** Model of generate_mesh run by one process (generation/mesh_generator.py l.291-529, 562-621, 655-712, 734-870) and of linter
    (geometry/utils.py l.820-872).  Not modelled: printing, timing, type checks of the options (Model/Options.v), comm.size > 1
    (Model/Localize.v, Model/Migration.v), h0 = 0, NaN coordinates, allocation failures. *)
From Coq Require Import Reals List Arith Bool ZArith.
From Verif Require Import Model.Base Model.SDF Model.Simplex Model.Mesh Model.Formulas Model.Laplace Model.Forces Model.Newton Model.InitGrid Model.Dihedral.
Import ListNotations.
Local Open Scope R_scope.

(** What the code calls: CGAL at iteration k (the finite vertices and cells after inserting the points), np.unique on keys and
    rows, the snapping of fix_mesh (which depends on the whole vertex array), the order argsort gives to vertex_to_entities,
    pyamg, and numpy's random numbers for the seed.  Nothing is assumed of them here. *)
Record backend := mkBackend {
  b_tri : nat -> list pt -> list pt * list row;
  b_uniqK : list key -> list key;
  b_uniqR : list row -> list row;
  b_key : list pt -> pt -> key;
  b_ve : list row -> list (nat * nat);
  b_solve : list pt -> list row -> list pt;
  b_rand : nat -> list R }.

(** options after parsing (l.345-358) *)
Record gen_opts := mkOpts {
  o_max_iter : R; o_perform_checks : bool; o_pfix : list pt; o_points : option (list pt); o_delta_t : R; o_geps_mult : R;
  o_subdomains : option (list (pt -> R)); o_mesh_improvement : bool; o_r0m_is_h0 : bool; o_h0 : option R }.

(** l.734-738 *)
Definition remove_outside (dim : nat) (fd : pt -> R) (geps : R) (p : list pt) (t : list row) : list row :=
  filter (fun r => Rltb (fd (centroid dim (pts_of p r))) (- geps)) t.

(** ---- linter, geometry/utils.py l.820-872 ---- *)
(** l.845: np.argmin of two qualities; the first minimum, a NaN counts as smaller than anything *)
Definition argmin2 (q0 q1 : option R) : nat :=
  match q0, q1 with
  | None, _ => 0%nat
  | Some _, None => 1%nat
  | Some x, Some y => if Rltb y x then 1%nat else 0%nat
  end.
(** l.841-849 *)
Definition lint_delete (p : list pt) (t : list row) (pairs : list (nat * nat)) : list nat :=
  unique_nat (map (fun e => match argmin2 (entity_qual p t (fst e)) (entity_qual p t (snd e)) with O => fst e | _ => snd e end) pairs).
Definition drop_rows (del : list nat) (t : list row) : list row :=
  map (fun e => nth e t []) (filter (fun e => negb (existsb (Nat.eqb e) del)) (seq 0 (length t))).
(** fix_mesh with the snapping of its own vertex array *)
Definition run_fix (B : backend) (p : list pt) (t : list row) : result (list pt * list row) :=
  match fix_mesh (b_uniqK B) (b_uniqR B) (b_key B p) p t true true with Ok (p', t', _) => Ok (p', t') | Err e => Err e end.
Definition run_delete (B : backend) (min_qual : R) (p : list pt) (t : list row) : result (list pt * list row) :=
  delete_boundary_entities (b_uniqK B) (b_uniqR B) (b_key B p) 2 min_qual p t (b_ve B t).
(** l.837-872; the final np.amin fails on an empty mesh *)
Definition linter (B : backend) (dim : nat) (min_qual : R) (p : list pt) (t : list row) : result (list pt * list row) :=
  let del := lint_delete p t (do_any_overlap dim p t (b_ve B t)) in
  rbind (run_fix B p (drop_rows del t)) (fun pt1 =>
  rbind (if (dim =? 2)%nat then
           rbind (run_delete B min_qual (fst pt1) (snd pt1)) (fun pt2 =>
           rbind (is_manifold (b_uniqR B) 2 2 (snd pt2)) (fun _ => Ok pt2))
         else Ok pt1) (fun pt3 =>
  match snd pt3 with [] => Err ValueError | _ => Ok pt3 end)).

(** ---- _termination, l.655-677 (one process); sliver_removal calls it in 3D ---- *)
Definition termination (B : backend) (dim : nat) (smooth checks : bool) (p : list pt) (t : list row) : result (list pt * list row) :=
  rbind (if (dim =? 2)%nat then
           rbind (run_fix B p t) (fun pt1 =>
           rbind (run_delete B (15 / 100) (fst pt1) (snd pt1)) (fun pt2 =>
           Ok (if smooth then (b_solve B (fst pt2) (snd pt2), snd pt2) else pt2)))
         else Ok (p, t)) (fun pt3 =>
  if checks then linter B dim (10 / 100) (fst pt3) (snd pt3) else run_fix B (fst pt3) (snd pt3)).

(** ---- the meshing loop, l.460-529 ---- *)
Record problem := mkProblem {
  g_dim : nat; g_fd : pt -> R; g_fh : pt -> R; g_h0 : R; g_deps : R; g_geps : R; g_delta_t : R; g_pfix : list pt;
  g_subs : option (list (pt -> R)); g_max_iter : R; g_checks : bool; g_improve : bool }.
(** l.472-475 *)
Definition ifix_of (P : problem) (p : list pt) : list nat := map (fun f => closest_node f p) (g_pfix P).
(** l.507: the largest movement *)
Definition max_move (dt : R) (F : list (list R)) : R := dt * max_list (map (fun f => sqrt (rtotal (map (fun v => v * v) f))) F).
(** l.492-501: new positions of one iteration *)
Definition next_points (P : problem) (p : list pt) (t : list row) : list pt :=
  project_levels (g_deps P) (g_h0 P) 0 (g_fd P :: match g_subs P with Some l => l | None => [] end)
    (force_step (g_dim P) (g_fh P) (L0mult (g_dim P)) (g_delta_t P) (ifix_of P p) p t).
(** l.489-492: what the last iteration returns *)
Definition finish (B : backend) (P : problem) (p : list pt) (t : list row) : result (list pt * list row) :=
  rbind (termination B (g_dim P) (match g_subs P with None => g_improve P | Some _ => false end) (g_checks P) p t) (fun pt1 =>
  rbind (improve_level_set (b_uniqR B) (g_fd P) (g_deps P) (g_dim P) (fst pt1) (snd pt1)) (fun p2 =>
  Ok (p2, remove_outside (g_dim P) (g_fd P) (g_h0 P * (1 / 1000)) p2 (snd pt1)))).
(** one run of the loop, at most [fuel] iterations; [None]: still running.  The second component counts the triangulations. *)
Fixpoint mesh_loop (B : backend) (P : problem) (fuel count : nat) (p : list pt) : option (result (list pt * list row) * nat) :=
  match fuel with
  | O => None
  | S k =>
      let '(p1, t0) := b_tri B count p in
      match p1 with
      | [] => Some (Err ValueError, S count)   (* argmin / max of an empty array *)
      | _ =>
          let t1 := remove_outside (g_dim P) (g_fd P) (g_geps P) p1 t0 in
          if Reqb (INR count) (g_max_iter P - 1) then Some (finish B P p1 t1, S count)
          else
            let F := zero_rows (ifix_of P p1) (compute_forces (g_dim P) (g_fh P) (L0mult (g_dim P)) p1 t1) in
            if Rltb (max_move (g_delta_t P) F) (1000 * g_h0 P)
            then mesh_loop B P k (S count) (next_points P p1 t1)
            else Some (Err AssertionError, S count)
      end
  end.

(** ---- preparation, l.368-447 ---- *)
(** a geometry object, or a function together with the bbox option *)
Inductive dom_arg := DObject (d : domain) | DFunction (f : pt -> R) (b : list R).
Inductive size_arg := SObject (b : list R) (hmin : R) (f : pt -> R) | SFunction (f : pt -> R) | SScalar (h : R).
Definition dom_fd (d : dom_arg) : pt -> R := match d with DObject o => d_eval o | DFunction f _ => f end.
Definition dom_bbox (d : dom_arg) : list R := match d with DObject o => d_bbox o | DFunction _ b => b end.
Definition dom_corners (d : dom_arg) : option (list pt) := match d with DObject o => d_corners o | DFunction _ _ => None end.
Definition size_bbox (s : size_arg) : option (list R) := match s with SObject b _ _ => Some b | _ => None end.
Definition size_hmin (s : size_arg) : option R := match s with SObject _ h _ => Some h | SFunction _ => None | SScalar h => Some h end.
Definition size_fh (s : size_arg) : pt -> R := match s with SObject _ _ f => f | SFunction f => f | SScalar h => fun _ => h end.
(** l.543-552 *)
Fixpoint minmax_box (upper : bool) (b0 b1 : list R) : list R :=
  match b0, b1 with
  | a :: t0, b :: t1 => (if upper then Rmax a b else Rmin a b) :: minmax_box (negb upper) t0 t1
  | _, _ => []
  end.
(** l.379-384 *)
Definition full_bbox (d : dom_arg) (s : size_arg) : list R :=
  match size_bbox s with None => dom_bbox d | Some b1 => minmax_box false (dom_bbox d) b1 end.
Definition box_eqb (b0 b1 : list R) : bool := if list_eq_dec Req_EM_T b0 b1 then true else false.
(** l.396-404: the distance function actually meshed; [None] for a padded box of another dimension than 2 or 3 *)
Definition box_fd (b : list R) : option (pt -> R) :=
  match b with
  | [x1; x2; y1; y2] => Some (d_eval (Rectangle x1 x2 y1 y2 no_manip))
  | [x1; x2; y1; y2; z1; z2] => Some (d_eval (Cube x1 x2 y1 y2 z1 z2 no_manip))
  | _ => None
  end.
Definition meshed_fd (d : dom_arg) (s : size_arg) : option (pt -> R) :=
  match size_bbox s with
  | None => Some (dom_fd d)
  | Some b1 => if box_eqb (dom_bbox d) b1 then Some (dom_fd d) else box_fd (full_bbox d s)
  end.
Fixpoint pairs_of (b : list R) : list (R * R) := match b with x :: y :: t => (x, y) :: pairs_of t | _ => [] end.
(** l.392-394, 424-430: corners are fixed points unless 3D with a variable size *)
Definition used_corners (d : dom_arg) (s : size_arg) (dim : nat) : list pt :=
  match dom_corners d, s with
  | None, _ => []
  | Some c, SScalar _ => c
  | Some c, _ => if (dim =? 3)%nat then [] else c
  end.
Definition fixed_points (d : dom_arg) (s : size_arg) (dim : nat) (fd : pt -> R) (deps : R) (o : gen_opts) : list pt :=
  o_pfix o ++ kept_corners fd deps (used_corners d s dim).
(** _generate_initial_points, l.808-856, one process.  [lsf] (l.562-591) is true unless the size is a plain function. *)
Definition grid_points (s : size_arg) (bbox : list R) (h0 : R) : list pt :=
  match s with
  | SFunction _ => make_init_points (pairs_of bbox) 0 1 1 h0
  | _ => create_staggered_grid h0 (pairs_of bbox)
  end.
(** l.829-842 *)
Definition r0m_of (o : gen_opts) (h0 : R) (r0 : list R) : R :=
  if o_r0m_is_h0 o then (if Rltb (11 / 10 * h0) (min_list r0) then 11 / 10 * h0 else h0) else min_list r0.
(** l.825-853 *)
Definition initial_points (B : backend) (s : size_arg) (dim : nat) (bbox : list R) (fd : pt -> R) (h0 geps : R) (pfix : list pt) (o : gen_opts)
    : result (list pt) :=
  let p := filter (fun x => Rltb (fd x) geps) (grid_points s bbox h0) in
  let r0 := map (size_fh s) p in
  match p with
  | [] => Err ValueError      (* r0.min() of an empty array *)
  | _ =>
      let r0m := r0m_of o h0 r0 in
      let u := b_rand B (length p) in
      Ok (pfix ++ map (fun i => nth i p []) (filter (fun i => Rltb (nth i u 0) (r0m ^ dim / nth i r0 0 ^ dim)) (seq 0 (length p))))
  end.
(** l.859-870 *)
Definition start_points (B : backend) (s : size_arg) (dim : nat) (bbox : list R) (fd : pt -> R) (h0 geps : R) (pfix : list pt) (o : gen_opts)
    : result (list pt) :=
  match o_points o with Some p => Ok p | None => initial_points B s dim bbox fd h0 geps pfix o end.

Definition the_h0 (s : size_arg) (o : gen_opts) : option R := match size_hmin s with Some h => Some h | None => o_h0 o end.
(** l.419: sqrt(2^-52) * h0 *)
Definition deps_of (h0 : R) : R := / 2 ^ 26 * h0.

(** l.368-458: everything before the loop.  Errors are raised in this order only up to the kind: a box of another dimension
    than 2 or 3 fails somewhere in the preparation or at DT() (l.465). *)
Definition prepare (B : backend) (d : dom_arg) (s : size_arg) (o : gen_opts) : result (problem * list pt) :=
  let bbox := full_bbox d s in
  let dim := Nat.div2 (length bbox) in
  match meshed_fd d s with
  | None => Err OtherError                                            (* l.397-404: tmp is unbound *)
  | Some fd =>
  match the_h0 s o with
  | None => Err OtherError                                            (* l.411: KeyError *)
  | Some h0 =>
      if Rltb h0 0 then Err ValueError else
      if negb ((dim =? 2)%nat || (dim =? 3)%nat) then Err OtherError else   (* l.421: DT is None *)
      let deps := deps_of h0 in
      let geps := o_geps_mult o * h0 in
      let pfix := fixed_points d s dim fd deps o in
      rbind (start_points B s dim bbox fd h0 geps pfix o) (fun p =>
      if Rltb (o_max_iter o) 0 then Err ValueError else
      match p with
      | [] => Err AssertionError
      | _ => Ok (mkProblem dim fd (size_fh s) h0 deps geps (o_delta_t o) pfix (o_subdomains o) (o_max_iter o)
                   (o_perform_checks o) (o_mesh_improvement o), p)
      end)
  end
  end.
(** generate_mesh *)
Definition generate_mesh (B : backend) (d : dom_arg) (s : size_arg) (o : gen_opts) (fuel : nat) : option (result (list pt * list row) * nat) :=
  match prepare B d s o with
  | Err e => Some (Err e, O)
  | Ok (P, p) => mesh_loop B P fuel 0 p
  end.

(** ---- sliver_removal, l.59-288, rank 0 ---- *)
Record sliver_problem := mkSliver {
  s_fd : pt -> R; s_h0 : R; s_deps : R; s_geps : R; s_lo : R; s_hi : R; s_gamma : R; s_preserve : bool; s_max_iter : R; s_checks : bool }.
(** l.254-262: direction of the move of a sliver's first corner.  The replacement of infinite components by 1 (l.255) and a zero
    gradient (NaN) belong to cells without volume or shape, where the model's value means nothing. *)
Definition perturb_of (p : list pt) (r : row) : pt :=
  let P i := nth (nth i r O) p [] in
  let g := circumsphere_grad (P 0%nat) (P 1%nat) (P 2%nat) (P 3%nat) in
  let n := sqrt (rtotal (map (fun x => Rabs x ^ 2) g)) in map (fun x => x / n) g.
(** l.266-274; num_old_bad = inf is [None] *)
Definition new_step (gamma step : R) (bad : nat) (old : option nat) : R :=
  match old with
  | None => step / gamma
  | Some o => if (bad <? o)%nat then step / gamma else if (o <? bad)%nat then step * gamma else step / (8 / 10)
  end.
(** l.277: p[move] += ...: the positions are read before any is written; of several slivers with one first corner the last wins *)
Definition perturb_points (step h0 : R) (p : list pt) (t : list row) (sl : list nat) : list pt :=
  map (fun v => match filter (fun e => (nth 0 (nth e t []) O =? v)%nat) (rev sl) with
                | [] => nth v p []
                | e :: _ => map2 (fun x d => x + step * h0 * d) (nth v p []) (perturb_of p (nth e t []))
                end) (seq 0 (length p)).
Fixpoint sliver_loop (B : backend) (S : sliver_problem) (fuel count : nat) (step : R) (old : option nat) (p : list pt)
    : option (result (list pt * list row) * nat) :=
  match fuel with
  | O => None
  | Datatypes.S k =>
      let '(p1, t0) := b_tri B count p in
      let t1 := remove_outside 3 (s_fd S) (s_geps S) p1 t0 in
      let sl := slivers p1 t1 (s_lo S) (s_hi S) in
      if Reqb (INR count) (s_max_iter S - 1) then Some (termination B 3 false (s_checks S) p1 t1, Datatypes.S count)
      else match sl with
      | [] => Some (run_fix B p1 t1, Datatypes.S count)
      | _ =>
          let step' := new_step (s_gamma S) step (length sl) old in
          let p2 := perturb_points step' (s_h0 S) p1 t1 sl in
          match (if s_preserve S then improve_level_set (b_uniqR B) (s_fd S) (s_deps S) 3 p2 t1 else Ok p2) with
          | Err e => Some (Err e, Datatypes.S count)
          | Ok p3 => sliver_loop B S k (Datatypes.S count) step' (Some (length sl)) p3
          end
      end
  end.
Record sliver_opts := mkSliverOpts {
  so_max_iter : R; so_checks : bool; so_min_deg : R; so_max_deg : R; so_geps_mult : R; so_gamma : R; so_preserve : bool; so_h0 : option R }.
(** l.107-121: the defaults; the documentation gives 170 degrees for the upper bound *)
Definition sliver_defaults : sliver_opts := mkSliverOpts 50 false 10 180 (1 / 10) 1 false None.
Definition cube_fd (b : list R) : option (pt -> R) :=
  match b with [x1; x2; y1; y2; z1; z2] => Some (d_eval (Cube x1 x2 y1 y2 z1 z2 no_manip)) | _ => None end.
(** l.134-200: 2D points are refused; the padded domain is always a Cube *)
Definition sliver_removal (B : backend) (rank : nat) (points : list pt) (d : dom_arg) (s : size_arg) (o : sliver_opts) (fuel : nat)
    : option (result (list pt * list row) * nat) + unit :=
  if (0 <? rank)%nat then inr tt else inl (
  if existsb (fun x => (length x =? 2)%nat) points then Some (Err OtherError, O) else
  match (match size_bbox s with
         | None => Some (dom_fd d)
         | Some b1 => if box_eqb (dom_bbox d) b1 then Some (dom_fd d) else cube_fd (full_bbox d s)
         end), (match size_hmin s with Some h => Some h | None => so_h0 o end) with
  | Some fd, Some h0 =>
      if Rltb h0 0 then Some (Err ValueError, O) else
      if Rltb (so_max_iter o) 0 then Some (Err ValueError, O) else
      sliver_loop B (mkSliver fd h0 (deps_of h0) (so_geps_mult o * h0) (so_min_deg o * PI / 180) (so_max_deg o * PI / 180)
                       (so_gamma o) (so_preserve o) (so_max_iter o) (so_checks o)) fuel 0 (1 / 10) None points
  | _, _ => Some (Err OtherError, O)
  end).
