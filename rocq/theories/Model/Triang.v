(** Model of the bindings in generation/cpp/delaunay_class.cpp (2D) and delaunay_class3.cpp (3D) and of _get_topology
    (generation/mesh_generator.py l.904-908).  Line numbers are those of delaunay_class.cpp; the 3D file has the same functions.
    CGAL itself is not modelled: its operations are described by relations that leave the order of the vertices, the cells and everything
    geometric open.  Handles are natural numbers, coordinates are reals. *)
From Coq Require Import List ZArith Reals Bool Arith Permutation.
From Verif Require Import Model.Base.
Import ListNotations.
Local Open Scope nat_scope.

(** a vertex: handle, position, info() *)
Record vertex := V { handle : nat; pos : list R; info : nat }.
(** finite vertices and finite cells in the order in which CGAL's iterators visit them; a cell is the list of its vertex handles *)
Record tri := { verts : list vertex; cells : list (list nat) }.
Definition empty : tri := {| verts := []; cells := [] |}.
Definition pos_dec : forall x y : list R, {x = y} + {x <> y} := list_eq_dec Req_EM_T.

(** what holds of every CGAL triangulation: handles are distinct, no two vertices at one position, cells have live corners *)
Definition wf (s : tri) : Prop :=
  NoDup (map handle (verts s)) /\ NoDup (map pos (verts s)) /\ forall c h, In c (cells s) -> In h c -> In h (map handle (verts s)).
(** CGAL's operations.  Insertion of a range with info: old vertices stay where they are, there is a vertex at every given position, new
    vertices carry the info of one of the pairs given for their position; vertices at the position of a pair may get its info *)
Definition cgal_insert (s : tri) (pairs : list (list R * nat)) (s' : tri) : Prop :=
  wf s' /\
  (forall v, In v (verts s) -> exists v', In v' (verts s') /\ handle v' = handle v /\ pos v' = pos v) /\
  (forall q i, In (q, i) pairs -> exists v', In v' (verts s') /\ pos v' = q) /\
  (forall v', In v' (verts s') -> In (pos v', info v') pairs \/ In v' (verts s)).
Definition cgal_remove (s : tri) (h : nat) (s' : tri) : Prop :=
  wf s' /\ exists v, handle v = h /\ Permutation (verts s) (v :: verts s').
(** moving a vertex onto another one deletes the moved one *)
Definition cgal_move (s : tri) (h : nat) (q : list R) (s' : tri) : Prop :=
  wf s' /\ exists v rest, handle v = h /\ Permutation (verts s) (v :: rest) /\
    if in_dec pos_dec q (map pos rest) then Permutation (verts s') rest else Permutation (verts s') (V h q (info v) :: rest).

(** insert, l.108-121: the numbers continue at the current number of vertices *)
Definition insert_pairs (s : tri) (p : list (list R)) : list (list R * nat) := combine p (seq (length (verts s)) (length p)).
Definition insert (s : tri) (p : list (list R)) (s' : tri) : Prop := cgal_insert s (insert_pairs s p) s'.
(** remove, l.123-135: handles are collected first.  A number out of range, or one given twice, is undefined behaviour: no transition *)
Inductive removes : list nat -> tri -> tri -> Prop :=
| rm_nil s : removes [] s s
| rm_cons h hs s s' s'' : cgal_remove s h s' -> removes hs s' s'' -> removes (h :: hs) s s''.
Definition handle_at (s : tri) (i : nat) : nat := nth i (map handle (verts s)) 0.
Definition remove (s : tri) (to_remove : list nat) (s' : tri) : Prop :=
  Forall (fun i => i < length (verts s)) to_remove /\ removes (map (handle_at s) to_remove) s s'.
(** move, l.137-159 *)
Inductive moves : list (nat * list R) -> tri -> tri -> Prop :=
| mv_nil s : moves [] s s
| mv_cons h q hs s s' s'' : cgal_move s h q s' -> moves hs s' s'' -> moves ((h, q) :: hs) s s''.
Definition move (s : tri) (to_move : list nat) (new_positions : list (list R)) (s' : tri) : Prop :=
  Forall (fun i => i < length (verts s)) to_move /\ length new_positions = length to_move /\ moves (combine (map (handle_at s) to_move) new_positions) s s'.
(** get_finite_vertices, l.267-297: renumbers *)
Fixpoint renumber (i : nat) (l : list vertex) : list vertex :=
  match l with [] => [] | v :: t => V (handle v) (pos v) i :: renumber (S i) t end.
Definition get_finite_vertices (s : tri) : list (list R) * tri := (map pos (verts s), {| verts := renumber 0 (verts s); cells := cells s |}).
(** get_finite_cells, l.232-265 *)
Definition info_of (s : tri) (h : nat) : nat := match find (fun v => handle v =? h) (verts s) with Some v => info v | None => 0 end.
Definition get_finite_cells (s : tri) : list (list nat) := map (map (info_of s)) (cells s).
(** _get_topology *)
Definition get_topology (s : tri) : list (list R) * list (list nat) * tri :=
  let '(p, s') := get_finite_vertices s in (p, get_finite_cells s', s').

(** any sequence of calls on a new object *)
Inductive history : tri -> Prop :=
| h_new : history empty
| h_insert s p s' : history s -> insert s p s' -> history s'
| h_remove s ix s' : history s -> remove s ix s' -> history s'
| h_move s ix q s' : history s -> move s ix q s' -> history s'
| h_read s : history s -> history (snd (get_finite_vertices s)).

(** get_edges of the 2D class, l.160-212.  [t] is the table of get_finite_cells (info() of the corners of each face, faces in iteration order);
    [neighbor f i]: the number of the finite face across the edge opposite to corner i of face f, if there is one (an infinite face is never in
    the set); [addr]: the addresses face handles are compared by; [order]: the order in which the unordered_set is traversed.
    A mask shorter than the number of faces is read out of bounds: None. *)
Definition selected (mask : list Z) (n : nat) : list nat := filter (fun f => Z.eqb (nth f mask 0%Z) 1) (seq 0 n).
Definition cw (i : nat) : nat := match i with 0 => 2 | 1 => 0 | _ => 1 end.
Definition ccw (i : nat) : nat := match i with 0 => 1 | 1 => 2 | _ => 0 end.
Definition is_in (l : list nat) (x : nat) : bool := existsb (Nat.eqb x) l.
Definition corner (t : list (list nat)) (f i : nat) : nat := nth i (nth f t []) 0.
Definition face_edges (t : list (list nat)) (neighbor : nat -> nat -> option nat) (addr : nat -> Z) (sel : list nat) (f : nat) : list (nat * nat) :=
  flat_map (fun i =>
    let skip := match neighbor f i with Some g => (addr g <? addr f)%Z && is_in sel g | None => false end in
    if skip then [] else [(corner t f (cw i), corner t f (ccw i))]) [0;1;2].
Definition get_edges2 (order : list nat -> list nat) (t : list (list nat)) (neighbor : nat -> nat -> option nat) (addr : nat -> Z) (mask : list Z)
    : option (list (nat * nat)) :=
  if length mask <? length t then None
  else let sel := selected mask (length t) in Some (flat_map (face_edges t neighbor addr sel) (order sel)).
(** get_edges of the 3D class, delaunay_class3.cpp l.172-258; [around f a b]: the finite cells met when circulating around the edge between corners
    a and b of cell f *)
Definition tet_edges : list (nat * nat) := [(0,1);(1,2);(2,0);(0,3);(1,3);(2,3)].
Definition cell_edges (t : list (list nat)) (around : nat -> nat -> nat -> list nat) (addr : nat -> Z) (sel : list nat) (f : nat) : list (nat * nat) :=
  flat_map (fun e =>
    if existsb (fun g => (addr g <? addr f)%Z && is_in sel g) (around f (fst e) (snd e)) then [] else [(corner t f (fst e), corner t f (snd e))]) tet_edges.
Definition get_edges3 (order : list nat -> list nat) (t : list (list nat)) (around : nat -> nat -> nat -> list nat) (addr : nat -> Z) (mask : list Z)
    : option (list (nat * nat)) :=
  if length mask <? length t then None
  else let sel := selected mask (length t) in Some (flat_map (cell_edges t around addr sel) (order sel)).
