(** The domain a call to sliver_removal works on: the one passed, or the box of the domain and the box of the size function together when they differ. *)
From Coq Require Import List Reals.
From Verif Require Import Model.Generator.
Import ListNotations.
Local Open Scope R_scope.

(** depth below the faces of the box [lo, hi] in three dimensions, with the sign of a distance function *)
Definition box_depth (lo hi : nat -> R) (x y z : R) : R :=
  - Rmin (Rmin (x - lo 0%nat) (hi 0%nat - x)) (Rmin (Rmin (y - lo 1%nat) (hi 1%nat - y)) (Rmin (z - lo 2%nat) (hi 2%nat - z))).
Definition sliver_domain (d : dom_arg) (s : size_arg) (fd : list R -> R) : Prop :=
  ((size_bbox s = None \/ size_bbox s = Some (dom_bbox d)) /\ fd = dom_fd d) \/
  (exists b, size_bbox s = Some b /\ b <> dom_bbox d /\
    forall x y z, fd [x; y; z] = box_depth (fun i => Rmin (nth (2 * i) (dom_bbox d) 0) (nth (2 * i) b 0)) (fun i => Rmax (nth (2 * i + 1) (dom_bbox d) 0) (nth (2 * i + 1) b 0)) x y z).
