(** A domain lies in its own bounding box. *)
From Coq Require Import List Reals.
From Verif Require Import Model.SDF Spec.Geom.
Local Open Scope R_scope.

Definition box_contains (d : domain) : Prop := forall x, d_eval d x <= 0 -> length x = d_dim d -> in_box (d_bbox d) x.
