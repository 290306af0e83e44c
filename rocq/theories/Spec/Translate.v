(** Moving everything by a vector v. *)
From Coq Require Import Reals List.
From Verif Require Import Model.Base Model.SDF Model.Mesh Model.Generator.
Import ListNotations.
Local Open Scope R_scope.

(** a point, a list of points, a box (min, max, min, max, ...) moved by v *)
Fixpoint tr (v x : list R) : list R := match v, x with d :: v', a :: x' => (a + d) :: tr v' x' | _, _ => x end.
Definition trp (v : list R) (p : list (list R)) : list (list R) := map (tr v) p.
Fixpoint trb (v b : list R) : list R := match v, b with d :: v', lo :: hi :: b' => (lo + d) :: (hi + d) :: trb v' b' | _, _ => b end.
(** a mesh, or the exception, moved *)
Definition tr_result (v : list R) (r : result (list (list R) * list (list nat))) : result (list (list R) * list (list nat)) :=
  match r with Ok (p, t) => Ok (trp v p, t) | Err e => Err e end.
Definition tr_outcome (v : list R) (o : option (result (list (list R) * list (list nat)) * nat)) : option (result (list (list R) * list (list nat)) * nat) :=
  match o with Some (r, k) => Some (tr_result v r, k) | None => None end.
(** g is f moved: a number as a function of a position *)
Definition moved (v : list R) (f g : list R -> R) : Prop := forall x, length x = length v -> g (tr v x) = f x.

Inductive moved_domain (v : list R) : dom_arg -> dom_arg -> Prop :=
| moved_object : forall o o', d_bbox o' = trb v (d_bbox o) -> d_corners o' = option_map (trp v) (d_corners o) ->
    moved v (d_eval o) (d_eval o') -> moved_domain v (DObject o) (DObject o')
| moved_function : forall f f' b, moved v f f' -> moved_domain v (DFunction f b) (DFunction f' (trb v b)).
Inductive moved_size (v : list R) : size_arg -> size_arg -> Prop :=
| moved_size_object : forall b h f f', moved v f f' -> moved_size v (SObject b h f) (SObject (trb v b) h f')
| moved_size_function : forall f f', moved v f f' -> moved_size v (SFunction f) (SFunction f')
| moved_size_scalar : forall h, moved_size v (SScalar h) (SScalar h).
Definition moved_levels (v : list R) (a b : option (list (list R -> R))) : Prop :=
  match a, b with None, None => True | Some l, Some m => Forall2 (moved v) l m | _, _ => False end.
(** the positions among the options moved, everything else equal *)
Definition moved_options (v : list R) (o o' : gen_opts) : Prop :=
  o_pfix o' = trp v (o_pfix o) /\ o_points o' = option_map (trp v) (o_points o) /\ moved_levels v (o_subdomains o) (o_subdomains o') /\
  o_h0 o' = o_h0 o /\ o_max_iter o' = o_max_iter o /\ o_perform_checks o' = o_perform_checks o /\ o_delta_t o' = o_delta_t o /\
  o_geps_mult o' = o_geps_mult o /\ o_mesh_improvement o' = o_mesh_improvement o /\ o_r0m_is_h0 o' = o_r0m_is_h0 o.
(** the called libraries do not depend on the origin; the random numbers are those of the seed *)
Definition moved_backend (v : list R) (B B' : backend) : Prop :=
  (forall k p, b_tri B' k (trp v p) = (trp v (fst (b_tri B k p)), snd (b_tri B k p))) /\
  (forall p x, b_key B' (trp v p) (tr v x) = b_key B p x) /\
  (forall p t, b_solve B' (trp v p) t = trp v (b_solve B p t)) /\
  (forall l, b_uniqK B' l = b_uniqK B l) /\ (forall l, b_uniqR B' l = b_uniqR B l) /\ (forall t, b_ve B' t = b_ve B t) /\ (forall n, b_rand B' n = b_rand B n).

(** points of n coordinates; simplices of n + 1 existing corners *)
Definition in_space (n : nat) (p : list (list R)) : Prop := forall x, In x p -> length x = n.
Definition sound (n : nat) (p : list (list R)) (t : list (list nat)) : Prop :=
  in_space n p /\ forall r, In r t -> length r = S n /\ forall a, In a r -> (a < length p)%nat.
(** the libraries answer points of the space with a mesh of the space *)
Definition sound_backend (n : nat) (B : backend) : Prop :=
  uniq_ok (b_uniqK B) /\ uniq_ok (b_uniqR B) /\
  (forall k p, in_space n p -> sound n (fst (b_tri B k p)) (snd (b_tri B k p))) /\
  (forall p t, sound n p t -> in_space n (b_solve B p t) /\ length (b_solve B p t) = length p).
(** the positions given by the user have n coordinates, the boxes n pairs *)
Definition inputs_in_space (n : nat) (d : dom_arg) (s : size_arg) (o : gen_opts) : Prop :=
  length (dom_bbox d) = (2 * n)%nat /\ (forall b, size_bbox s = Some b -> length b = (2 * n)%nat) /\
  (forall c, dom_corners d = Some c -> in_space n c) /\ in_space n (o_pfix o) /\ (forall p, o_points o = Some p -> in_space n p).
