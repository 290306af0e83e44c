(** Keywords of generate_mesh and sliver_removal: which of them a call does not look at, and the documented defaults
    (generation/mesh_generator.py l.72-98 and l.306-338). *)
From Coq Require Import String List Reals Bool.
From Verif Require Import Model.Base Model.Options Model.Calls Spec.OptionNames.
Import ListNotations.
Local Open Scope string_scope.

(** only recognised names *)
Definition known (kw : call_kw) : Prop := forall k, In k (map fst kw) -> In k mesh_option_names.
(** the two lists of keywords give the same value, or none, to every name outside l *)
Definition same_except (l : list string) (kw kw' : call_kw) : Prop := forall k, ~ In k l -> given k kw = given k kw'.

(** never read by generate_mesh on one process *)
Definition mesh_unread : list string := ["axis"; "gamma"; "preserve"; "min_dh_angle_bound"; "max_dh_angle_bound"; "domain"; "edge_length"].
(** read only when nothing else decides *)
Definition brings_h0 (s : size_val) : bool := match s with SizeFunV _ => false | _ => true end.
Definition brings_box (d : dom_val) : bool := match d with FunV _ => false | _ => true end.
Definition is_given (k : string) (kw : call_kw) : bool := match given k kw with None | Some ANone => false | Some _ => true end.
Definition subdomains_bring_boxes (kw : call_kw) : bool := match given "subdomains" kw with Some (ADomains l) => forallb brings_box l | _ => true end.
Definition mesh_ignored (d : dom_val) (s : size_val) (kw : call_kw) : list string :=
  mesh_unread
  ++ (if brings_h0 s then ["h0"] else [])
  ++ (if brings_box d && subdomains_bring_boxes kw then ["bbox"] else [])
  ++ (if is_given "points" kw then ["seed"; "r0m_is_h0"] else [])
  ++ (if is_given "subdomains" kw then ["mesh_improvement"] else []).
(** read by sliver_removal neither; pfix and axis are documented *)
Definition sliver_unread : list string :=
  ["pfix"; "axis"; "points"; "seed"; "delta_t"; "subdomains"; "mesh_improvement"; "r0m_is_h0"; "domain"; "edge_length"].
Definition sliver_ignored (d : dom_val) (s : size_val) : list string :=
  sliver_unread ++ (if brings_h0 s then ["h0"] else []) ++ (if brings_box d then ["bbox"] else []).

Local Open Scope R_scope.
Definition mesh_defaults : list (string * arg) :=
  [("verbose", ANum (PInt 1)); ("max_iter", ANum (PInt 50)); ("seed", ANum (PInt 0)); ("perform_checks", ABool false); ("pfix", ANone);
   ("axis", ANum (PInt 1)); ("delta_t", ANum (PFloat (30 / 100))); ("geps_mult", ANum (PFloat (1 / 10))); ("mesh_improvement", ABool true);
   ("r0m_is_h0", ABool false)]%string.
(** all documented defaults of sliver_removal but that of max_dh_angle_bound *)
Definition sliver_defaults_doc : list (string * arg) :=
  [("verbose", ANum (PInt 1)); ("max_iter", ANum (PInt 50)); ("perform_checks", ABool false); ("pfix", ANone); ("axis", ANum (PInt 1));
   ("min_dh_angle_bound", ANum (PFloat 10)); ("geps_mult", ANum (PFloat (1 / 10)))]%string.
