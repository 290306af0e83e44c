(** What the overlap check reports and which cell of a reported pair has to go. *)
From Coq Require Import List Arith Reals.
From Verif Require Import Model.Simplex Spec.Linear.
Import ListNotations.
Local Open Scope R_scope.

Definition corner_points (p : list (list R)) (r : list nat) : list (list R) := map (fun v => nth v p []) r.
Definition centre (d : nat) (s : list (list R)) : list R := combination d (repeat (/ INR (S d)) (S d)) s.
(** cells r and r' have a common vertex, r' is not flat and contains the centre of r (in 3D: in its interior) *)
Definition centre_in (d : nat) (p : list (list R)) (r r' : list nat) : Prop :=
  (exists v, In v r /\ In v r') /\ simp_vol (corner_points p r') <> 0 /\
  if (d =? 2)%nat then in_hull d (corner_points p r') (centre d (corner_points p r))
  else in_open_hull d (corner_points p r') (centre d (corner_points p r)).
(** qualities; an undefined quality is the lowest *)
Definition lower (a b : option R) : Prop :=
  match a, b with Some x, Some y => x < y | None, Some _ => True | _, None => False end.
(** cell number e loses against some cell: against one that contains its centre unless that one has the lower quality, and against one
    whose centre it contains if its own quality is the lower *)
Definition loses (d : nat) (p : list (list R)) (t : list (list nat)) (e : nat) : Prop :=
  exists f, (f < length t)%nat /\ f <> e /\
    let q i := simp_qual (corner_points p (nth i t [])) in
    (centre_in d p (nth e t []) (nth f t []) /\ ~ lower (q f) (q e) \/ centre_in d p (nth f t []) (nth e t []) /\ lower (q e) (q f)).
