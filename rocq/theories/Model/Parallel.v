(** Model of generate_mesh run by several processes (generation/mesh_generator.py l.291-529, 655-738, 787-893 with comm.size > 1;
    migration/migration.py l.16-183) as one program per rank, whose messages depend on what the rank received before.
    Collective operations (comm.bcast, comm.allreduce, comm.Reduce) are written with sends and receives
    under a tag of their own: the root sends to every other rank, or receives from every other rank, in increasing order.
    Not modelled: printing, timing, option checks, NaN; an edge_length that is a plain function together with user points
    (l.800 then calls it with a tuple of arrays). *)
From Coq Require Import Reals List Arith Bool ZArith.
From Verif Require Import Model.Base Model.MPI Model.Process Model.SDF Model.Mesh Model.Forces Model.InitGrid Model.Interp Model.Blocker Model.Localize
  Model.Migration Model.WhereTo Model.Generator.
Import ListNotations.
Local Open Scope R_scope.

(** messages: a local interpolant, points (also the extents and a single extent), a number, array lengths, cells *)
Inductive pmsg := MSizing (vecs : list (list R)) (vals : list R) | MPts (l : list (list R)) | MNum (x : R) | MLens (l : list nat) | MCells (t : list (list nat)).
Definition pts_in (m : pmsg) : list (list R) := match m with MPts l => l | _ => [] end.
Definition num_in (m : pmsg) : R := match m with MNum x => x | _ => 0 end.
Definition lens_in (m : pmsg) : list nat := match m with MLens l => l | _ => [] end.
Definition cells_in (m : pmsg) : list (list nat) := match m with MCells t => t | _ => [] end.

(** ---- communication patterns ---- *)
Fixpoint send_all (tag : nat) (dests : list nat) (f : nat -> pmsg) : proc pmsg unit :=
  match dests with [] => Done tt | d :: r => Out d tag (f d) (send_all tag r f) end.
Fixpoint recv_all (tag : nat) (srcs : list nat) : proc pmsg (list pmsg) :=
  match srcs with [] => Done [] | s :: r => Inp s tag (fun m => pbind (recv_all tag r) (fun l => Done (m :: l))) end.
Definition others (size root : nat) : list nat := filter (fun r => negb (r =? root)%nat) (seq 0 size).
(** comm.bcast(m, root) *)
Definition bcast_p (size rank root : nat) (m : pmsg) : proc pmsg pmsg :=
  if (rank =? root)%nat then pbind (send_all coll (others size root) (fun _ => m)) (fun _ => Done m) else Inp root coll Done.
(** mesh_generator.py l.846: comm.allreduce(x, op=MPI.MIN) *)
Definition allreduce_min (size rank : nat) (x : R) : proc pmsg R :=
  if (rank =? 0)%nat then
    pbind (recv_all coll (seq 1 (size - 1))) (fun l => let v := fold_left Rmin (map num_in l) x in
    pbind (send_all coll (seq 1 (size - 1)) (fun _ => MNum v)) (fun _ => Done v))
  else Out 0%nat coll (MNum x) (Inp 0%nat coll (fun m => Done (num_in m))).
(** migration.py l.16-52: rank 0 samples the size function on every rank's grid and sends the interpolants *)
Definition local_grid_sizes (fh : list R -> R) (bbox : list (R * R)) (size axis : nat) (h0 : R) (r : nat) : pmsg :=
  let vecs := sizing_vectors bbox r size axis h0 in MSizing vecs (map fh (grid_of vecs)).
(** the value at a multi-index of an array stored in the order of grid_of *)
Fixpoint flat_index (vecs : list (list R)) (k : list nat) : nat :=
  match vecs, k with v :: vs, i :: k' => (i * length (grid_of vs) + flat_index vs k')%nat | _, _ => O end.
Definition sizing_in (m : pmsg) : list R -> R :=
  match m with MSizing vecs vals => interp vecs (fun k => nth (flat_index vecs k) vals 0) | _ => fun _ => 0 end.
Definition localize_sizing_p (size rank : nat) (lfh : nat -> pmsg) : proc pmsg pmsg :=
  if (rank =? 0)%nat then pbind (send_all 11 (seq 1 (size - 1)) lfh) (fun _ => Done (lfh O)) else Inp 0%nat 11%nat Done.
(** l.867-877: the box of the rank's points, 5 h0 larger along the split axis; one broadcast per rank *)
Definition own_extent (dim axis : nat) (h0 : R) (p : list pt) : list R :=
  map (fun i => min_list (column i p) - (if (i =? axis)%nat then 5 * h0 else 0)) (seq 0 dim) ++
  map (fun i => max_list (column i p) + (if (i =? axis)%nat then 5 * h0 else 0)) (seq 0 dim).
Fixpoint bcasts_p (size rank : nat) (roots : list nat) (mine : list R) : proc pmsg (list (list R)) :=
  match roots with
  | [] => Done []
  | root :: rest => pbind (bcast_p size rank root (MPts [mine])) (fun m =>
      pbind (bcasts_p size rank rest mine) (fun l => Done (nth 0 (pts_in m) [] :: l)))
  end.

(** what the code calls, per rank: CGAL at iteration k after inserting the points, and after inserting the received points too;
    CGAL's circumcircle against a box (WhereTo); the rest as in Generator *)
Record par_backend := mkPar {
  q_tri : nat -> nat -> list pt -> list pt * list row;
  q_ins : nat -> nat -> list pt -> list pt -> list pt * list row;
  q_meets : list (list R) -> corners -> bool;
  q_unknown : nat -> R;
  q_rnd : R -> R;
  q_serial : nat -> backend }.

(** ---- starting points ---- *)
(** migration.py l.55-69 on one rank; the extents arrive with every round *)
Fixpoint deal_p (size : nat) (blocks : list (list (list R))) (ext : list (list R)) (locals : list nat) : proc pmsg (result unit) :=
  match locals with
  | [] => Done (Ok tt)
  | l :: rest => match nth_error blocks l with
      | None => Done (Err OtherError)                                                      (* IndexError *)
      | Some b => Out l 12%nat (MPts b) (pbind (bcast_p size 0 0 (MPts ext)) (fun _ => deal_p size blocks ext rest))
      end
  end.
Fixpoint take_p (size rank : nat) (locals : list nat) (pts ext : list (list R)) : proc pmsg (list (list R) * list (list R)) :=
  match locals with
  | [] => Done (pts, ext)
  | l :: rest =>
      if (rank =? l)%nat then Inp 0%nat 12%nat (fun m => pbind (bcast_p size rank 0 (MPts [])) (fun e => take_p size rank rest (pts_in m) (pts_in e)))
      else pbind (bcast_p size rank 0 (MPts [])) (fun e => take_p size rank rest pts (pts_in e))
  end.
Definition localize_points_p (size rank : nat) (blocks : list (list (list R))) (ext : list (list R)) : proc pmsg (result (list pt * list (list R))) :=
  if (rank =? 0)%nat then
    pbind (deal_p size blocks ext (seq 1 (size - 1))) (fun r => match r with
      | Err e => Done (Err e)
      | Ok _ => Done (Ok (nth 0 blocks [], ext))
      end)
  else pbind (take_p size rank (seq 1 (size - 1)) [] []) (fun pe => Done (Ok pe)).

Section Par.
Variable Q : par_backend.
Variables size axis : nat.
(** the arguments of the call; all ranks make the same call *)
Variables (d : dom_arg) (s : size_arg) (o : gen_opts).

(** what the ranks start with: size function, own points, extents of all ranks *)
Definition started := ((list R -> R) * list pt * list (list R))%type.
(** _generate_initial_points, l.808-852 *)
Definition lsf : bool := match s with SFunction _ => false | _ => true end.
Definition own_grid (bbox : list R) (fd : pt -> R) (h0 geps : R) (rank : nat) : list pt :=
  filter (fun x => Rltb (fd x) geps) (make_init_points (pairs_of bbox) rank size axis h0).
Definition decimate (rank dim : nat) (fh : list R -> R) (r0m : R) (p : list pt) : list pt :=
  let u := b_rand (q_serial Q rank) (length p) in
  map (fun i => nth i p []) (filter (fun i => Rltb (nth i u 0) (r0m ^ dim / fh (nth i p []) ^ dim)) (seq 0 (length p))).
Definition generate_points_p (rank dim : nat) (bbox : list R) (fd : pt -> R) (h0 geps : R) : proc pmsg (result started) :=
  pbind (if lsf then pbind (localize_sizing_p size rank (local_grid_sizes (size_fh s) (pairs_of bbox) size axis h0)) (fun m => Done (sizing_in m))
         else Done (size_fh s)) (fun fh =>
  let p := own_grid bbox fd h0 geps rank in
  match p with
  | [] => Done (Err ValueError)                                             (* r0.min() of an empty array *)
  | _ => pbind (allreduce_min size rank (r0m_of o h0 (map fh p))) (fun r0m =>
      let p' := decimate rank dim fh r0m p in
      match p' with
      | [] => Done (Err ValueError)                                         (* np.amin of an empty array, l.872 *)
      | _ => pbind (bcasts_p size rank (seq 0 size) (own_extent dim axis h0 p')) (fun ext => Done (Ok (fh, p', ext)))
      end)
  end).
(** _user_defined_points, l.787-805 *)
Definition user_points_p (rank dim : nat) (bbox : list R) (h0 : R) (points : list pt) : proc pmsg (result started) :=
  let blk := if (rank =? 0)%nat then blocker (q_rnd Q) dim points size axis else Ok ([], []) in
  match blk with
  | Err e => Done (Err e)
  | Ok (blocks, ext) =>
      pbind (localize_sizing_p size rank (local_grid_sizes (size_fh s) (pairs_of bbox) size axis h0)) (fun m =>
      pbind (localize_points_p size rank blocks ext) (fun r => match r with
        | Err e => Done (Err e)
        | Ok (p, ext') => Done (Ok (sizing_in m, p, ext'))
        end))
  end.

(** ---- one meshing iteration ---- *)
(** migration.py l.148-183: points received, in the order received *)
Definition exchange_p (rank : nat) (ex : exports) : proc pmsg (list (list R)) :=
  if ((nsb ex =? 0) && (nsa ex =? 0))%nat then Done []
  else
    let send_below k := if (negb (nsb ex =? 0) && negb (rank =? 0))%nat then Out (rank - 1)%nat 11%nat (MPts (firstn (nsb ex) (rows ex))) k else k in
    let recv_above f := if (negb (rank =? size - 1))%nat then Inp (rank + 1)%nat 11%nat (fun m => f (pts_in m)) else f [] in
    let send_above k := if (negb (nsa ex =? 0) && negb (rank =? size - 1))%nat then Out (rank + 1)%nat 11%nat (MPts (firstn (nsa ex) (skipn (nsb ex) (rows ex)))) k else k in
    let recv_below f := if (negb (rank =? 0))%nat then Inp (rank - 1)%nat 11%nat (fun m => f (pts_in m)) else f [] in
    send_below (recv_above (fun a => send_above (recv_below (fun b => Done (a ++ b))))).
(** len(recv), l.724: np.array([[]]) has length 1 *)
Definition recv_count (ex : exports) (recv : list (list R)) : nat := if ((nsb ex =? 0) && (nsa ex =? 0))%nat then 1%nat else length recv.
(** l.722-723: the export table after triangulating p *)
Definition table (P : problem) (ext : list (list R)) (rank count : nat) (p : list pt) : option exports :=
  let '(p1, t1) := q_tri Q rank count p in
  option_map (read_table (g_dim P)) (enqueue (g_dim P) (q_meets Q) (q_unknown Q) ext p1 t1 rank size).
(** l.725-731, l.482: vertices and kept cells after inserting the received points *)
Definition with_ghosts (P : problem) (ext : list (list R)) (rank count : nat) (p recv : list pt) : list pt * list row :=
  let '(p2, t2) := q_ins Q rank count p recv in
  let '(p3, t3, _) := remove_external (q_rnd Q) (g_dim P) (nth rank ext []) p2 t2 in
  (p3, remove_outside (g_dim P) (g_fd P) (g_geps P) p3 t3).
(** migration.py l.101-105 on rank 0 *)
Fixpoint recv_pairs (srcs : list nat) : proc pmsg (list pmsg) :=
  match srcs with [] => Done [] | s :: r => Inp s 12%nat (fun a => Inp s 13%nat (fun b => pbind (recv_pairs r) (fun l => Done (a :: b :: l)))) end.
(** migration.py l.72-112 *)
Definition aggregate_p (rank : nat) (mesh : list pt * list row) : proc pmsg (list pt * list row) :=
  let lens n := map (fun i => if (i =? rank)%nat then n else 0%nat) (seq 0 size) in
  if (rank =? 0)%nat then
    pbind (recv_all coll (seq 1 (size - 1))) (fun lp =>
    pbind (recv_all coll (seq 1 (size - 1))) (fun lt =>
    pbind (recv_pairs (seq 1 (size - 1))) (fun ms =>
      let off_p := map (fun i => list_sum (nth i (lens (length (fst mesh))) O :: map (fun m => nth i (lens_in m) O) lp)) (seq 0 size) in
      Done (gather (cumsum 0 off_p) 1 (fst mesh) (snd mesh)
        (map (fun m => match m with MCells t => Cells t | _ => Points (pts_in m) end) ms)))))
  else Out 0%nat coll (MLens (lens (length (fst mesh)))) (Out 0%nat coll (MLens (lens (length (snd mesh))))
    (Out 0%nat 12%nat (MPts (fst mesh)) (Out 0%nat 13%nat (MCells (snd mesh)) (Done ([], []))))).
(** result of a rank: rank 0 the mesh, the others (True, True) *)
Definition out := option (result (option (list pt * list row))).
Definition par_finish (P : problem) (rank : nat) (p : list pt) (t : list row) : proc pmsg out :=
  match run_fix (q_serial Q rank) p t with
  | Err e => Done (Some (Err e))
  | Ok mesh => pbind (aggregate_p rank mesh) (fun g =>
      if (rank =? 0)%nat then Done (Some (match finish (q_serial Q 0) P (fst g) (snd g) with Ok m => Ok (Some m) | Err e => Err e end))
      else Done (Some (Ok None)))
  end.
(** l.460-529; [None]: still running after [fuel] iterations.  P has no fixed points (l.885-893, l.426). *)
Fixpoint par_loop (P : problem) (ext : list (list R)) (rank fuel count : nat) (p : list pt) : proc pmsg out :=
  match fuel with
  | O => Done None
  | S k =>
      match table P ext rank count p with
      | None => Done (Some (Err OtherError))                                (* a write outside the export buffer: anything may happen *)
      | Some ex => pbind (exchange_p rank ex) (fun recv =>
          let '(p3, t4) := with_ghosts P ext rank count p recv in
          if Reqb (INR count) (g_max_iter P - 1) then par_finish P rank p3 t4
          else
            let F := compute_forces (g_dim P) (g_fh P) (L0mult (g_dim P)) p3 t4 in
            let p' := delete_ghosts (next_points P p3 t4) (recv_count ex recv) in
            if (rank =? 0)%nat then
              match F with
              | [] => Done (Some (Err ValueError))                          (* max of an empty array *)
              | _ => if Rltb (max_move (g_delta_t P) F) (1000 * g_h0 P) then par_loop P ext rank k (S count) p' else Done (Some (Err AssertionError))
              end
            else par_loop P ext rank k (S count) p')
      end
  end.

(** ---- the whole call on one rank; the broadcast of hmin (l.376) is left out: all ranks make the same call ---- *)
Definition par_rank (fuel rank : nat) : proc pmsg out :=
  let bbox := full_bbox d s in
  let dim := Nat.div2 (length bbox) in
  match meshed_fd d s with
  | None => Done (Some (Err OtherError))
  | Some fd =>
  match the_h0 s o with
  | None => Done (Some (Err OtherError))
  | Some h0 =>
      if Rltb h0 0 then Done (Some (Err ValueError)) else
      if negb ((dim =? 2)%nat || (dim =? 3)%nat) then Done (Some (Err OtherError)) else
      let geps := o_geps_mult o * h0 in
      pbind (match o_points o with
             | None => generate_points_p rank dim bbox fd h0 geps
             | Some points => user_points_p rank dim bbox h0 points
             end) (fun r => match r with
        | Err e => Done (Some (Err e))
        | Ok (fh, p, ext) =>
            if Rltb (o_max_iter o) 0 then Done (Some (Err ValueError)) else
            match p with
            | [] => Done (Some (Err AssertionError))
            | _ => par_loop (mkProblem dim fd fh h0 (deps_of h0) geps (o_delta_t o) [] (o_subdomains o) (o_max_iter o) (o_perform_checks o) (o_mesh_improvement o))
                     ext rank fuel 0 p
            end
        end)
  end
  end.
(** all ranks; the others do not exist *)
Definition parallel_mesh (fuel : nat) : nat -> proc pmsg out := fun rank => if (rank <? size)%nat then par_rank fuel rank else Done None.
End Par.
