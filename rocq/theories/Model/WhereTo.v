(** Model of the selection of ghost vertices: migration/cpp/cpputils.cpp (build_vtoe2/3, c_where_to2/3, where_to2/3) and
    migration.py l.116-145 (enqueue).  The 2D and 3D versions differ only in the number of coordinates d; one definition
    models both.  Reals instead of binary64; CGAL::do_intersect(circle/sphere, box) is the parameter [meets]. *)
From Coq Require Import List ZArith Reals Bool Arith.
From Flocq Require Import Core.
From Verif Require Import Model.Base Model.Simplex Model.Migration.
Import ListNotations.

(** lower left and upper right corner *)
Definition corners := (list R * list R)%type.
(** build_vtoe2 l.33-49, build_vtoe3 l.51-66: elements of vertex v, in element order, one entry per occurrence of v *)
Definition vtoe (faces : list (list nat)) (v : nat) : list nat :=
  flat_map (fun e => map (fun _ => e) (filter (Nat.eqb v) (nth e faces []))) (seq 0 (length faces)).
(** CGAL::do_overlap of two Bbox: closed boxes *)
Fixpoint do_overlap (lo1 hi1 lo2 hi2 : list R) : bool :=
  match lo1, hi1, lo2, hi2 with
  | a :: lo1', b :: hi1', c :: lo2', d :: hi2' => negb (Rltb b c) && negb (Rltb d a) && do_overlap lo1' hi1' lo2' hi2'
  | _, _, _, _ => true
  end.
(** l.123-132 / l.293-304: bounding box of the element *)
Definition element_lo (d : nat) (s : list (list R)) : list R := map (fun k => min_list (map (fun p => nth k p 0%R) s)) (seq 0 d).
Definition element_hi (d : nat) (s : list (list R)) : list R := map (fun k => max_list (map (fun p => nth k p 0%R) s)) (seq 0 d).
(** element of the mesh as the list of its corners, l.118-121 *)
Definition element (points : list (list R)) (faces : list (list nat)) (e : nat) : list (list R) := map (fun v => nth v points []) (nth e faces []).

Section Where.
Variable d : nat.
Variable meets : list (list R) -> corners -> bool.
Variables box1 box2 : corners.
(** l.114-168 / l.283-346, the loop over the elements of one vertex: Some false is exports[iv] = 0, Some true is exports[iv] = 1 *)
Fixpoint scan (els : list (list (list R))) : option bool :=
  match els with
  | [] => None
  | s :: rest =>
      if do_overlap (element_lo d s) (element_hi d s) (fst box1) (snd box1) || do_overlap (element_lo d s) (element_hi d s) (fst box2) (snd box2) then
        if Reqb (simp_vol s) 0 then scan rest
        else if meets s box1 then Some false
        else if meets s box2 then Some true
        else scan rest
      else scan rest
  end.
Definition destination (points : list (list R)) (faces : list (list nat)) (v : nat) : option bool :=
  scan (map (element points faces) (vtoe faces v)).

(** l.177-193 / l.354-372: writes for the exported vertices, as (position, value); kb is kount_below *)
Definition row_writes (points : list (list R)) (base v : nat) : list (nat * R) :=
  combine (seq base (S d)) (firstn d (nth v points []) ++ [INR v]).
Fixpoint export_writes (points : list (list R)) (dest : nat -> option bool) (kb : nat) (vs : list nat) (below_count above_count : nat) : list (nat * R) :=
  match vs with
  | [] => []
  | v :: rest =>
      match dest v with
      | None => export_writes points dest kb rest below_count above_count
      | Some false => row_writes points (below_count * S d + S d) v ++ export_writes points dest kb rest (S below_count) above_count
      | Some true => row_writes points (kb * S d + above_count * S d + S d) v ++ export_writes points dest kb rest below_count (S above_count)
      end
  end.
(** l.195-197 / l.374-377: the first row, after the others *)
Definition header_writes (kb ka : nat) : list (nat * R) := combine (seq 0 (S d)) (INR kb :: INR ka :: repeat 0%R (d - 1)).
(** assignment of std::vector entries; [None]: a write outside the vector *)
Fixpoint poke (buf : list R) (ws : list (nat * R)) : option (list R) :=
  match ws with
  | [] => Some buf
  | (k, x) :: r => if (k <? length buf)%nat then poke (upd buf k x) r else None
  end.
Definition count (o : option bool) (dest : nat -> option bool) (n : nat) : nat :=
  length (filter (fun v => match o, dest v with Some a, Some b => Bool.eqb a b | _, _ => false end) (seq 0 n)).
(** l.171-200 / l.348-380: the vector has 1 + num_points * (d + 1) entries, initially -1 *)
Definition where_to (points : list (list R)) (faces : list (list nat)) : option (list R) :=
  let n := length points in
  let dest := destination points faces in
  let kb := count (Some false) dest n in
  let ka := count (Some true) dest n in
  poke (repeat (-1)%R (1 + n * S d)) (export_writes points dest kb (seq 0 n) 0 0 ++ header_writes kb ka).
End Where.

(** where_to2 l.227-243, where_to3: the array view of shape (1 + num_points, d + 1) on the vector; what is read outside
    of the vector is unknown *)
Definition table_view (d n : nat) (unknown : nat -> R) (buf : list R) : list (list R) :=
  map (fun i => map (fun j => let k := (i * S d + j)%nat in if (k <? length buf)%nat then nth k buf 0%R else unknown k) (seq 0 (S d))) (seq 0 (1 + n)).
(** what exchange (migration.py l.152-153, l.161, l.172) reads in the table: int(exports[0, 0]), int(exports[0, 1]), exports[1:, 0:dim] *)
Definition read_table (d : nat) (t : list (list R)) : exports :=
  {| nsb := Z.to_nat (Ztrunc (nth 0 (nth 0 t []) 0%R)); nsa := Z.to_nat (Ztrunc (nth 1 (nth 0 t []) 0%R)); rows := map (firstn d) (tl t) |}.
(** enqueue, migration.py l.116-145: extents is one row [lo...; hi...] per rank; dummy boxes below rank 0 and above the last rank *)
Definition extent_box (d : nat) (extents : list (list R)) (r : nat) : corners := let e := nth r extents [] in (firstn d e, firstn d (skipn d e)).
Definition dummy_box (d : nat) : corners := (repeat (-999999999)%R d, repeat (-999999998)%R d).
Definition lower_box (d size rank : nat) (extents : list (list R)) : corners :=
  if (rank =? 0)%nat then dummy_box d else extent_box d extents (rank - 1).
Definition upper_box (d size rank : nat) (extents : list (list R)) : corners :=
  if (rank =? 0)%nat then extent_box d extents (rank + 1) else if (rank =? size - 1)%nat then dummy_box d else extent_box d extents (rank + 1).
Definition enqueue (d : nat) (meets : list (list R) -> corners -> bool) (unknown : nat -> R) (extents points : list (list R)) (faces : list (list nat)) (rank size : nat) : option (list (list R)) :=
  option_map (table_view d (length points) unknown) (where_to d meets (lower_box d size rank extents) (upper_box d size rank extents) points faces).
