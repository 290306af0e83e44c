(** Model of the combinatorial half of SeismicMesh/geometry/utils.py and of unique_edges (geometry/cpp/fast_geometry.cpp).
    A mesh is a list of points (rows of coordinates) and a list of entities (rows of vertex numbers, natural numbers:
    negative numpy indices are not modelled).  np.unique over the byte view of the rows returns the distinct rows in the
    order of their bytes; that order is left open: [uniq] is any function returning each distinct row once. *)
From Coq Require Import List ZArith Reals Bool Arith.
From Verif Require Import Model.Base Model.SDF Model.Simplex.
Import ListNotations.

Notation row := (list nat) (only parsing).
Definition row_dec : forall x y : row, {x = y} + {x <> y} := list_eq_dec Nat.eq_dec.
(** bytes of a row of snapped coordinates *)
Definition key := list Z.
Definition key_dec : forall x y : key, {x = y} + {x <> y} := list_eq_dec Z.eq_dec.

(** what np.unique guarantees whatever the order *)
Definition uniq_ok {A} (uniq : list A -> list A) : Prop := forall l, NoDup (uniq l) /\ forall x, In x (uniq l) <-> In x l.

(** np.sort of one row of integers / np.unique of integers (ascending, no repetition) *)
Fixpoint insert_nat (x : nat) (l : list nat) : list nat :=
  match l with [] => [x] | y :: t => if x <=? y then x :: l else y :: insert_nat x t end.
Definition sort_nat (l : list nat) : list nat := fold_right insert_nat [] l.
Fixpoint insert_uniq (x : nat) (l : list nat) : list nat :=
  match l with [] => [x] | y :: t => if x <? y then x :: l else if x =? y then l else y :: insert_uniq x t end.
Definition unique_nat (l : list nat) : list nat := fold_right insert_uniq [] l.

(** position of the first element satisfying f (length of the list if none) *)
Fixpoint find_pos {A} (f : A -> bool) (l : list A) : nat :=
  match l with [] => O | x :: t => if f x then O else S (find_pos f t) end.
Definition key_eqb (x y : key) : bool := if key_dec x y then true else false.
Definition row_eqb (x y : row) : bool := if row_dec x y then true else false.

(** ---- fix_mesh, l.204-249 ---- *)
Definition swap2 {A} (r : list A) : list A := match r with a :: b :: t => b :: a :: t | _ => r end.
Definition orient (p : list (list R)) (r : row) : row :=
  if Rltb (simp_vol (map (fun v => nth v p []) r)) 0 then swap2 r else r.
(** indexing beyond the array raises IndexError *)
Definition valid_rows (n : nat) (t : list row) : bool := forallb (forallb (fun v => v <? n)) t.

(** [snapkey q]: bytes of np.round(q/snap)*snap (l.229-230); returns (p, t, jx).  An empty vertex array has no maximum (l.228):
    ValueError. *)
Definition fix_mesh (uniqK : list key -> list key) (uniqR : list row -> list row) (snapkey : list R -> key)
    (p : list (list R)) (t : list row) (delete_unused fix_orientation : bool)
    : result (list (list R) * list row * list nat) :=
  let u := uniqK (map snapkey p) in
  let ix := map (fun k => find_pos (fun q => key_eqb (snapkey q) k) p) u in
  let jx := map (fun q => find_pos (key_eqb (snapkey q)) u) p in
  let p1 := map (fun i => nth i p []) ix in
  if length p =? 0 then Err ValueError else
  if valid_rows (length p) t then
    let t1 := uniqR (map (fun r => sort_nat (map (fun v => nth v jx O) r)) t) in
    let '(p2, t2, jx2) :=
      if delete_unused then
        let pix := unique_nat (concat t1) in
        (map (fun i => nth i p1 []) pix, map (map (fun v => find_pos (Nat.eqb v) pix)) t1,
         map (fun v => find_pos (Nat.eqb v) pix) (concat t1))
      else (p1, t1, jx) in
    Ok (p2, (if fix_orientation then map (orient p2) t2 else t2), jx2)
  else Err IndexError.

(** ---- vertex_to_entities, l.97-130 ---- *)
(** (vertex, entity) pairs in row order *)
Definition ve_pairs (t : list row) : list (nat * nat) :=
  flat_map (fun e => map (fun v => (v, e)) (nth e t [])) (seq 0 (length t)).
(** positions where the sorted first column changes *)
Fixpoint changes (pos prev : nat) (l : list nat) : list nat :=
  match l with [] => [] | x :: t => if x =? prev then changes (S pos) x t else pos :: changes (S pos) x t end.
Definition vtoe_ptr (keys : list nat) : list nat :=
  O :: (match keys with [] => [] | x :: t => changes 1 x t end) ++ [length keys].
(** argsort with unspecified order of equal keys: any sorted rearrangement [ve] of the pairs is possible *)
Fixpoint ascending (l : list nat) : Prop := match l with x :: ((y :: _) as t) => x <= y /\ ascending t | _ => True end.
Definition vtoe_result (ve : list (nat * nat)) : list nat * list nat := (map snd ve, vtoe_ptr (map fst ve)).
Definition slice {A} (l : list A) (a b : nat) : list A := firstn (b - a) (skipn a l).

(** ---- edges ---- *)
Definition pick (ix : list nat) (r : row) : row := map (fun i => nth i r O) ix.
(** get_edges, l.277-297 *)
Definition get_edges (dim : nat) (t : list row) : list row :=
  flat_map (fun r => map (fun ix => pick ix r)
    (if dim =? 2 then [[0;1];[0;2];[1;2]] else [[0;1];[1;2];[2;0];[0;3];[1;3];[2;3]])) t.
(** _get_edges, generation/mesh_generator.py l.680-688 *)
Definition gen_edges (dim : nat) (t : list row) : list row :=
  flat_map (fun ix => map (pick ix) t)
    ([[0;1];[1;2];[2;0]] ++ (if dim =? 3 then [[0;3];[1;3];[2;3]] else [])).
(** unique_edges, fast_geometry.cpp l.30-77: (min,max) pairs, std::sort, std::unique *)
Definition norm_edge (r : row) : nat * nat :=
  match r with [a; b] => (Nat.min a b, Nat.max a b) | _ => (O, O) end.
Definition edge_ltb (x y : nat * nat) : bool := (fst x <? fst y) || ((fst x =? fst y) && (snd x <? snd y)).
Definition edge_eqb (x y : nat * nat) : bool := (fst x =? fst y) && (snd x =? snd y).
Fixpoint insert_edge (x : nat * nat) (l : list (nat * nat)) : list (nat * nat) :=
  match l with [] => [x] | y :: t => if edge_ltb y x then y :: insert_edge x t else x :: l end.
Definition sort_edges (l : list (nat * nat)) : list (nat * nat) := fold_right insert_edge [] l.
(** std::unique keeps the first of each run of equal elements *)
Fixpoint std_unique (l : list (nat * nat)) : list (nat * nat) :=
  match l with
  | [] => []
  | x :: t => match std_unique t with
              | y :: u => if edge_eqb x y then x :: u else x :: y :: u
              | [] => [x]
              end
  end.
Definition unique_edges (edges : list row) : list (nat * nat) := std_unique (sort_edges (map norm_edge edges)).

(** unique_row_view + selection of the rows occurring n times, l.300-307 and 323-326, 434-437 *)
Definition rows_with_count (uniq : list row -> list row) (n : nat) (rows : list row) : list row :=
  filter (fun r => count_occ row_dec rows r =? n) (uniq rows).
(** get_boundary_edges, l.310-326 *)
Definition get_boundary_edges (uniq : list row -> list row) (dim : nat) (t : list row) : list row :=
  rows_with_count uniq (dim - 1) (map sort_nat (get_edges dim t)).
(** get_facets, l.408-418 *)
Definition get_facets (t : list row) : list row :=
  flat_map (fun r => map (fun ix => pick ix r) [[0;1;3];[1;2;3];[2;0;3];[1;2;0]]) t.
(** get_boundary_facets, l.421-437 *)
Definition get_boundary_facets (uniq : list row -> list row) (t : list row) : list row :=
  rows_with_count uniq 1 (map sort_nat (get_facets t)).
(** get_boundary_vertices, l.364-382 (dimension 2 or 3) *)
Definition get_boundary_vertices (uniq : list row -> list row) (dim : nat) (t : list row) : list nat :=
  unique_nat (concat (if dim =? 2 then get_boundary_edges uniq 2 t else get_boundary_facets uniq t)).
(** get_boundary_entities, l.385-405; [ve] is the sorted pair list of vertex_to_entities *)
Definition get_boundary_entities (uniq : list row -> list row) (dim : nat) (t : list row) (ve : list (nat * nat)) : list nat :=
  let '(vtoe, ptr) := vtoe_result ve in
  unique_nat (flat_map (fun v => slice vtoe (nth v ptr O) (nth (S v) ptr O)) (get_boundary_vertices uniq dim t)).

(** get_winded_boundary_edges, l.329-361.  State: visited flags, ordering (reversed), vNext.  The while loop is run with
    fuel; the proofs show that one more iteration than there are edges is enough. *)
Definition edge_has (v : nat) (e : row) : bool := existsb (Nat.eqb v) e.
Definition other_end (v : nat) (e : row) : nat := hd O (filter (fun w => negb (w =? v)) e).
Fixpoint first_choice (be : list row) (visited : list bool) (i v : nat) : option nat :=
  match be, visited with
  | e :: be', s :: vs => if edge_has v e && negb s then Some i else first_choice be' vs (S i) v
  | _, _ => None
  end.
Fixpoint wind_loop (fuel : nat) (be : list row) (visited : list bool) (ordering : list nat) (vNext : nat) : option (list nat) :=
  match fuel with
  | O => None
  | S f =>
      match first_choice be visited 0 vNext with
      | None => Some ordering
      | Some c => wind_loop f be (upd visited c true) (ordering ++ [c]) (other_end vNext (nth c be []))
      end
  end.
Definition get_winded (be : list row) : option (list row) :=
  match be with
  | [] => None  (** _bedges[0,:] raises IndexError *)
  | e :: _ =>
      option_map (map (fun i => nth i be []))
        (wind_loop (length be) be (upd (repeat false (length be)) 0 true) [O] (nth 1 e O))
  end.

(** is_manifold, l.634-654, for points with [ncol] coordinates.  Without boundary edges bedges is an empty float array and
    indexing with it raises IndexError. *)
Definition is_manifold (uniq : list row -> list row) (dim ncol : nat) (t : list row) : result bool :=
  let be := get_boundary_edges uniq dim t in
  match be with
  | [] => Err IndexError
  | _ => Ok (2 * length be =? ncol * length (unique_nat (concat be)))
  end.

(** delete_boundary_entities, l.440-469 *)
Definition poor (min_qual : R) (q : option R) : bool := match q with Some x => Rltb x min_qual | None => false end.
(** bele[delete] with delete = argwhere(qual[bele] < min_qual); np.delete drops those rows *)
Definition kept_rows (qual : nat -> option R) (min_qual : R) (bele : list nat) (t : list row) : list row :=
  let del := filter (fun e => poor min_qual (qual e)) bele in
  map (fun e => nth e t []) (filter (fun e => negb (existsb (Nat.eqb e) del)) (seq 0 (length t))).
Definition entity_qual (p : list (list R)) (t : list row) (e : nat) : option R :=
  simp_qual (map (fun v => nth v p []) (nth e t [])).
Definition delete_boundary_entities (uniqK : list key -> list key) (uniqR : list row -> list row) (snapkey : list R -> key)
    (dim : nat) (min_qual : R) (p : list (list R)) (t : list row) (ve : list (nat * nat)) : result (list (list R) * list row) :=
  let bele := get_boundary_entities uniqR dim t ve in
  match fix_mesh uniqK uniqR snapkey p (kept_rows (entity_qual p t) min_qual bele t) true true with
  | Ok (p', t', _) => Ok (p', t')
  | Err e => Err e
  end.

(** remove_external_entities, l.77-94 with c_remove_external_entities2/3 (fast_geometry.cpp l.216-242, 277-310): the coordinates of
    the corners of all entities are gathered and measured with c_drectangle / c_dblock; an entity goes when all are > 0.
    [extent] is (xmin, ymin, [zmin,] xmax, ymax, [zmax]).  Vertex numbers are read unchecked in C++; out of range is not modelled. *)
Definition ext_dist (rnd : R -> R) (extent q : list R) : R :=
  match extent with
  | [e0; e1; e2; e3] => c_drectangle rnd e0 e2 e1 e3 q
  | [e0; e1; e2; e3; e4; e5] => c_dblock rnd e0 e3 e1 e4 e2 e5 q
  | _ => 0%R
  end.
Definition remove_external (rnd : R -> R) (dim : nat) (extent : list R) (p : list (list R)) (t : list row)
    : list (list R) * list row * list nat :=
  let out r := length (filter (fun v => Rltb 0 (ext_dist rnd extent (nth v p []))) r) in
  (p, filter (fun r => negb (out r =? S dim)) t, seq 0 (length p)).
