(** Axis-parallel boxes written as flat lists (lo0, hi0, lo1, hi1, ...). *)
From Coq Require Import List Reals.
Import ListNotations.
Local Open Scope R_scope.

Inductive box_incl : list R -> list R -> Prop :=
| bi_nil : box_incl [] []
| bi_cons l h l' h' t t' : l' <= l -> h <= h' -> box_incl t t' -> box_incl (l :: h :: t) (l' :: h' :: t').
