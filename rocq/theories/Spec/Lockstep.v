(** What a parallel run is supposed to compute, written without messages: all ranks advance together, one iteration at a time, every
    rank seeing the points its neighbours exported in the same iteration. *)
From Coq Require Import Reals List Arith Bool.
From Verif Require Import Model.Base Model.SDF Model.Localize Model.Migration Model.Mesh Model.Forces Model.InitGrid Model.Interp Model.Blocker Model.Generator Model.Parallel.
Import ListNotations.
Local Open Scope nat_scope.

Section Lock.
Variable Q : par_backend.
Variables size : nat.
(** the problem as rank r sees it (the size function differs by rank), the extents of all ranks *)
Variables (P : nat -> problem) (ext : list (list R)).
(** what rank r has to export when the ranks hold the points p in iteration c *)
Definition exported (c : nat) (p : nat -> list pt) (r : nat) : exports :=
  match table Q size (P r) ext r c (p r) with Some e => e | None => {| nsb := 0; nsa := 0; rows := [] |} end.
(** rows for the rank below, rows for the rank above *)
Definition to_below (e : exports) : list (list R) := firstn (nsb e) (rows e).
Definition to_above (e : exports) : list (list R) := firstn (nsa e) (skipn (nsb e) (rows e)).
(** what rank r gets: from the rank above first *)
Definition incoming (c : nat) (p : nat -> list pt) (r : nat) : list (list R) :=
  (if r + 1 <? size then to_below (exported c p (r + 1)) else []) ++ (if r =? 0 then [] else to_above (exported c p (r - 1))).
(** vertices and kept cells of rank r in iteration c *)
Definition local_mesh (c : nat) (p : nat -> list pt) (r : nat) : list pt * list row := with_ghosts Q (P r) ext r c (p r) (incoming c p r).
(** how many vertices it deletes as ghosts: a rank with nothing to export deletes one *)
Definition lost (c : nat) (p : nat -> list pt) (r : nat) : nat :=
  if (nsb (exported c p r) =? 0) && (nsa (exported c p r) =? 0) then 1 else length (incoming c p r).
(** its points for the next iteration *)
Definition moved (c : nat) (p : nat -> list pt) (r : nat) : list pt :=
  delete_ghosts (next_points (P r) (fst (local_mesh c p r)) (snd (local_mesh c p r))) (lost c p r).
Fixpoint after (n : nat) (p : nat -> list pt) : nat -> list pt := match n with O => p | S k => moved k (after k p) end.
(** every rank has points for every neighbour in iteration c *)
Definition all_export (c : nat) (p : nat -> list pt) : Prop := forall r, r < size ->
  exists e, table Q size (P r) ext r c (p r) = Some e /\ (0 < r -> nsb e <> 0) /\ (r + 1 < size -> nsa e <> 0).
(** no rank has anything for anyone *)
Definition all_idle (c : nat) (p : nat -> list pt) : Prop := forall r, r < size ->
  exists e, table Q size (P r) ext r c (p r) = Some e /\ nsb e = 0 /\ nsa e = 0.
(** rank r has points for somebody; rank r has no points for its neighbour n *)
Definition has_exports (c : nat) (p : nat -> list pt) (r : nat) : Prop :=
  exists e, table Q size (P r) ext r c (p r) = Some e /\ (nsb e <> 0 \/ nsa e <> 0).
Definition none_for (n c : nat) (p : nat -> list pt) (r : nat) : Prop :=
  forall e, table Q size (P r) ext r c (p r) = Some e -> (n = r + 1 -> nsa e = 0) /\ (n + 1 = r -> nsb e = 0).
(** rank 0, which checks the movement, does not stop *)
Definition rank0_goes_on (c : nat) (p : nat -> list pt) : Prop :=
  let F := compute_forces (g_dim (P 0)) (g_fh (P 0)) (L0mult (g_dim (P 0))) (fst (local_mesh c p 0)) (snd (local_mesh c p 0)) in
  F <> [] /\ (max_move (g_delta_t (P 0)) F < 1000 * g_h0 (P 0))%R.
(** the ranks' final meshes one after the other, cells renumbered *)
Definition number_before (m : nat -> list pt * list row) (r : nat) : nat := list_sum (map (fun i => length (fst (m i))) (seq 0 r)).
Definition joined (m : nat -> list pt * list row) : list pt * list row :=
  (flat_map (fun r => fst (m r)) (seq 0 size), flat_map (fun r => map (map (fun v => v + number_before m r)) (snd (m r))) (seq 0 size)).
End Lock.

(** ---- the start of a run ---- *)
Section Begin.
Variable Q : par_backend.
Variables size axis : nat.
Variables (d : dom_arg) (s : size_arg) (o : gen_opts).
Definition the_dim : nat := Nat.div2 (length (full_bbox d s)).
(** the size function of rank r: sampled by rank 0 on a grid around the rank's slab and interpolated, unless it is a plain function *)
Definition sampled_size (h0 : R) (r : nat) : list R -> R :=
  let vecs := sizing_vectors (pairs_of (full_bbox d s)) r size axis h0 in
  interp vecs (fun k => nth (flat_index vecs k) (map (size_fh s) (grid_of vecs)) 0%R).
Definition size_on_rank (h0 : R) (r : nat) : list R -> R := match s with SFunction f => f | _ => sampled_size h0 r end.
(** the grid points of rank r close to the domain *)
Definition grid_on_rank (fd : pt -> R) (h0 : R) (r : nat) : list pt :=
  filter (fun x => Rltb (fd x) (o_geps_mult o * h0)) (make_init_points (pairs_of (full_bbox d s)) r size axis h0).
Definition is_least (f : nat -> R) (m : R) : Prop := (forall r, r < size -> (m <= f r)%R) /\ exists r, r < size /\ m = f r.
(** r0m: the smallest of the ranks' proposals *)
Definition selected_on_rank (fd : pt -> R) (h0 r0m : R) (r : nat) : list pt :=
  let p := grid_on_rank fd h0 r in let u := b_rand (q_serial Q r) (length p) in
  map (fun i => nth i p []) (filter (fun i => Rltb (nth i u 0%R) (r0m ^ the_dim / size_on_rank h0 r (nth i p []) ^ the_dim)) (seq 0 (length p))).
(** box of a set of points, 5 h0 larger on both sides along the split axis *)
Definition padded_extent (h0 : R) (p : list pt) : list R :=
  map (fun i => min_list (map (fun x => nth i x 0) p) - (if (i =? axis)%nat then 5 * h0 else 0))%R (seq 0 the_dim) ++
  map (fun i => max_list (map (fun x => nth i x 0) p) + (if (i =? axis)%nat then 5 * h0 else 0))%R (seq 0 the_dim).
(** rank r starts with size function fh r and points p r; ext are the extents all ranks use *)
Definition ranks_start (fd : pt -> R) (h0 : R) (fh : nat -> list R -> R) (p : nat -> list pt) (ext : list (list R)) : Prop :=
  match o_points o with
  | None => exists r0m, is_least (fun r => r0m_of o h0 (map (size_on_rank h0 r) (grid_on_rank fd h0 r))) r0m /\
      (forall r, r < size -> fh r = size_on_rank h0 r /\ p r = selected_on_rank fd h0 r0m r /\ grid_on_rank fd h0 r <> [] /\ p r <> []) /\
      ext = map (fun r => padded_extent h0 (p r)) (seq 0 size)
  | Some points => exists blocks, blocker (q_rnd Q) the_dim points size axis = Ok (blocks, ext) /\ size <= length blocks /\
      forall r, r < size -> fh r = sampled_size h0 r /\ p r = nth r blocks [] /\ p r <> []
  end.
(** the call is one the checks before the loop accept *)
Definition accepted (fd : pt -> R) (h0 : R) (K : nat) : Prop :=
  meshed_fd d s = Some fd /\ the_h0 s o = Some h0 /\ (0 <= h0)%R /\ (the_dim = 2 \/ the_dim = 3) /\ o_max_iter o = INR K /\ 0 < K.
(** the problem as rank r sees it: no fixed points, neither corners nor pfix *)
Definition on_rank (fd : pt -> R) (h0 : R) (fh : nat -> list R -> R) (r : nat) : problem :=
  mkProblem the_dim fd (fh r) h0 (deps_of h0) (o_geps_mult o * h0) (o_delta_t o) [] (o_subdomains o) (o_max_iter o) (o_perform_checks o) (o_mesh_improvement o).
End Begin.
