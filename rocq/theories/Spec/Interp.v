(** Multilinear interpolation on a rectilinear grid. *)
From Coq Require Import List Reals.
Import ListNotations.
Local Open Scope R_scope.

(** strictly increasing grid vector with at least two entries *)
Definition is_axis (g : list R) : Prop :=
  (2 <= length g)%nat /\ forall i j, (i < j < length g)%nat -> nth i g 0 < nth j g 0.
(** the node with multi-index ks lies in the grid *)
Inductive in_range : list (list R) -> list nat -> Prop :=
| ir_nil : in_range [] []
| ir_cons g gs k ks : (k < length g)%nat -> in_range gs ks -> in_range (g :: gs) (k :: ks).
Fixpoint node_at (gs : list (list R)) (ks : list nat) : list R :=
  match gs, ks with g :: gs', k :: ks' => nth k g 0 :: node_at gs' ks' | _, _ => [] end.
(** between the first and the last entry of every grid vector *)
Inductive covered : list (list R) -> list R -> Prop :=
| cv_nil : covered [] []
| cv_cons g gs x xs : nth 0 g 0 <= x <= nth (length g - 1) g 0 -> covered gs xs -> covered (g :: gs) (x :: xs).
(** x lies in the closed cell with lower multi-index ks *)
Inductive in_cell : list (list R) -> list nat -> list R -> Prop :=
| ce_nil : in_cell [] [] []
| ce_cons g gs k ks x xs : (S k < length g)%nat -> nth k g 0 <= x <= nth (S k) g 0 -> in_cell gs ks xs ->
    in_cell (g :: gs) (k :: ks) (x :: xs).
(** sum over the 2^d corners of the cell, each value weighted with the volume of the opposite part of the cell *)
Fixpoint corners_of_cell (ks : list nat) : list (list nat) :=
  match ks with [] => [[]] | k :: r => flat_map (fun c => [k :: c; S k :: c]) (corners_of_cell r) end.
Fixpoint corner_weight (gs : list (list R)) (ks : list nat) (c : list nat) (x : list R) : R :=
  match gs, ks, c, x with
  | g :: gs', k :: ks', j :: c', x0 :: x' =>
      (if Nat.eqb j k then nth (S k) g 0 - x0 else x0 - nth k g 0) / (nth (S k) g 0 - nth k g 0) * corner_weight gs' ks' c' x'
  | _, _, _, _ => 1
  end.
Definition multilinear (gs : list (list R)) (f : list nat -> R) (ks : list nat) (x : list R) : R :=
  fold_right Rplus 0 (map (fun c => corner_weight gs ks c x * f c) (corners_of_cell ks)).

(** neighbouring nodes along axis q differ by at most L_q times their distance *)
Fixpoint step_bounds (gs : list (list R)) (Ls : list R) (f : list nat -> R) : Prop :=
  match gs, Ls with
  | g :: gs', L :: Ls' =>
      (forall i ks, (S i < length g)%nat -> in_range gs' ks -> Rabs (f (S i :: ks) - f (i :: ks)) <= L * (nth (S i) g 0 - nth i g 0)) /\
      (forall i, (i < length g)%nat -> step_bounds gs' Ls' (fun k => f (i :: k)))
  | _, _ => True
  end.
Fixpoint weighted_l1 (Ls x y : list R) : R :=
  match Ls, x, y with L :: Ls', a :: x', b :: y' => L * Rabs (a - b) + weighted_l1 Ls' x' y' | _, _, _ => 0 end.
