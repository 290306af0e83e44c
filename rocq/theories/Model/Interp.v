(** The function inside a SizeFunction (sizing/size_function.py, sizing/mesh_size_function.py l.219-239, 391-408): scipy's
    RegularGridInterpolator with its default linear method, bounds_error=False and fill_value=None (extrapolate).
    scipy is modelled after its documentation and source: per axis the cell is searchsorted(grid, x) - 1 clipped to
    [0, n-2], the weight is (x - grid[i]) / (grid[i+1] - grid[i]), and the value is the product-weighted sum over the
    cell's corners.  Reals for binary64; [rnd] is the rounding of the grid vectors to float32 (l.515-521). *)
From Coq Require Import List Reals Arith Bool.
From Verif Require Import Model.Base Model.FastHJ Model.Sizing.
Import ListNotations.
Local Open Scope R_scope.

(** np.searchsorted(g, x): how many entries of the sorted vector are smaller than x *)
Definition count_lt (g : list R) (x : R) : nat := length (filter (fun a => Rltb a x) g).
(** cell of x, clipped at both ends *)
Definition cell_of (g : list R) (x : R) : nat := Nat.min (count_lt g x - 1) (length g - 2).
Definition weight (g : list R) (i : nat) (x : R) : R := (x - nth i g 0) / (nth (S i) g 0 - nth i g 0).
(** axis by axis; f gives the value at a multi-index *)
Fixpoint interp (gs : list (list R)) (f : list nat -> R) (x : list R) : R :=
  match gs, x with
  | g :: gs', x0 :: x' =>
      let i := cell_of g x0 in
      let s := weight g i x0 in
      (1 - s) * interp gs' (fun k => f (i :: k)) x' + s * interp gs' (fun k => f (S i :: k)) x'
  | _, _ => f []
  end.

(** l.514-523, numpy's linspace in float32 *)
Definition grid_vec (rnd : R -> R) (lo hi : R) (n : nat) : list R := map (fun i => rnd (linspace lo hi n i)) (seq 0 n).
Definition grid_vecs (rnd : R -> R) (b : bbox) (a : garr) : list (list R) :=
  [grid_vec rnd (bget b 0) (bget b 1) (n0 a); grid_vec rnd (bget b 2) (bget b 3) (n1 a)]
    ++ (if Nat.eqb (adim a) 3 then [grid_vec rnd (bget b 4) (bget b 5) (n2 a)] else []).
Fixpoint increasing (g : list R) : bool :=
  match g with a :: ((b :: _) as t) => Rltb a b && increasing t | _ => true end.
(** value of the array at a multi-index; the third index of a 2D array is 0 *)
Definition arr_at (a : garr) (k : list nat) : R := av a (nth 0 k O) (nth 1 k O) (nth 2 k O).
(** l.391-408.  scipy refuses vectors that are not strictly increasing (newer releases also take strictly decreasing ones, which are not
    modelled); an axis with a single sample has no cell (NaN or error, depending on the release). *)
Definition build_interpolant (rnd : R -> R) (a : garr) (b : bbox) : sizing_result (list R -> R) :=
  let gs := grid_vecs rnd b a in
  if negb (forallb increasing gs) then SzErr ValueError
  else if existsb (fun g => (length g <? 2)%nat) gs then SzNonFinite
  else SzOk (interp gs (arr_at a)).
(** l.127-239: bounding box, function and declared minimum of the SizeFunction of rank 0 *)
Definition size_function (ufilter : garr -> garr) (rnd : R -> R) (o : opts) (b : bbox) (vp : garr) : sizing_result (bbox * (list R -> R) * R) :=
  sbind (get_sizing ufilter o b vp) (fun r => let '(a, _, b') := r in
  sbind (build_interpolant rnd a b') (fun f => SzOk (b', f, o_hmin o))).
(** l.226-229: what the other ranks hold *)
Definition size_function_other (b0 : bbox) (o : opts) : bbox * (list R -> R) * R := (b0, fun _ => 1, o_hmin o).
