(** C19, C75: keyword options. *)
From Coq Require Import String List ZArith Reals Bool Lra.
From Verif Require Import Model.Base Model.Options Spec.Boxes Spec.OptionNames Proofs.ListAux Proofs.OptionsProofs.
Import ListNotations.
Local Open Scope R_scope.

(** C19: generate_mesh / sliver_removal *)
Theorem C19_unknown_mesh_option_rejected : forall d e kw,
  (exists k, In k (map fst kw) /\ ~ In k mesh_option_names) -> mesh_prologue d e kw = Err ValueError.
Proof.
  intros d e kw H. unfold mesh_prologue, parse_kwargs. rewrite (proj2 (check_keys_err mesh_keys kw) H). reflexivity.
Qed.
Print Assumptions C19_unknown_mesh_option_rejected.

(** ... and the name check rejects nothing else *)
Theorem C19_name_check_exact : forall kw,
  (parse_kwargs kw = Err ValueError <-> exists k, In k (map fst kw) /\ ~ In k mesh_option_names) /\
  (parse_kwargs kw = Ok tt <-> forall k, In k (map fst kw) -> In k mesh_option_names).
Proof. exact (fun kw => conj (check_keys_err mesh_keys kw) (check_keys_ok mesh_keys kw)). Qed.
Print Assumptions C19_name_check_exact.

(** C19: get_sizing_function_from_segy, rank 0 *)
Theorem C19_sizing_name_check_exact : forall kw,
  (sizing_check 0 kw = Err ValueError <-> exists k, In k (map fst kw) /\ ~ In k sizing_option_names) /\
  (sizing_check 0 kw = Ok tt <-> forall k, In k (map fst kw) -> In k sizing_option_names).
Proof. exact (fun kw => conj (check_keys_err sizing_keys kw) (check_keys_ok sizing_keys kw)). Qed.
Print Assumptions C19_sizing_name_check_exact.

(** the other ranks do not look *)
Theorem C19_other_ranks_accept_anything : forall rank kw, rank <> 0%nat -> sizing_check rank kw = Ok tt.
Proof. intros [|r] kw H; [congruence|reflexivity]. Qed.
Print Assumptions C19_other_ranks_accept_anything.

Example C19_case : (exists k, In k (map fst [("maxiter"%string, VOther)]) /\ ~ In k mesh_option_names) /\
  parse_kwargs [("max_iter"%string, VNum (PInt 5)); ("seed"%string, VOther)] = Ok tt.
Proof.
  split; [|reflexivity]. exists "maxiter"%string. split; [left; reflexivity|].
  intros H. apply mem_spec in H. discriminate H.
Qed.

(** C75: what a call that passes the prologue guarantees *)
Theorem C75_accepted_calls : forall d e kw box h0 max_iter,
  mesh_prologue d e kw = Ok (box, h0, max_iter) ->
  (forall k, In k (map fst kw) -> In k mesh_option_names) /\ 0 <= nval h0 /\ 0 <= nval max_iter /\
  exists b0, (forall z, ~ In (PInt z) b0) /\
    ((box = b0 /\ forall b1 h, e <> EdgeSizeFunction b1 h) \/
     exists b1 h, e = EdgeSizeFunction b1 h /\ (forall z, ~ In (PInt z) b1) /\ box = minmax b0 b1 /\ h0 = h).
Proof. exact prologue_ok. Qed.
Print Assumptions C75_accepted_calls.

Theorem C75_zero_accepted : forall b h max_iter, (forall z, ~ In (PInt z) b) -> 0 <= nval h -> 0 <= nval max_iter ->
  mesh_prologue (DomGeometry true b) (EdgeScalar h) [("max_iter"%string, VNum max_iter)] = Ok (b, h, max_iter).
Proof. exact prologue_accepts. Qed.
Print Assumptions C75_zero_accepted.

Theorem C75_integer_boxes_rejected : forall b,
  (check_bbox b = Ok tt <-> forall z, ~ In (PInt z) b) /\ (check_bbox b = Err ValueError <-> exists z, In (PInt z) b).
Proof. exact check_bbox_spec. Qed.
Print Assumptions C75_integer_boxes_rejected.

(** the numbers strictly between 0 and 1 are rejected too *)
Theorem C75_verbosity : forall v,
  (select_verbosity v = Err ValueError <-> nval v < 0 \/ 0 < nval v < 1) /\
  (nval v = 0 -> select_verbosity v = Ok (false, false)) /\
  (nval v = 1 -> select_verbosity v = Ok (true, false)) /\
  (1 < nval v -> select_verbosity v = Ok (true, true)).
Proof. exact verbosity_spec. Qed.
Print Assumptions C75_verbosity.

Theorem C75_merged_box_is_smallest : forall n b0 b1, length b0 = (2 * n)%nat -> length b1 = (2 * n)%nat ->
  let m := map nval (minmax b0 b1) in
  box_incl (map nval b0) m /\ box_incl (map nval b1) m /\
  forall c, box_incl (map nval b0) c -> box_incl (map nval b1) c -> box_incl m c.
Proof. exact minmax_smallest. Qed.
Print Assumptions C75_merged_box_is_smallest.

(** boxes of different dimension are not rejected: the longer one is cut *)
Theorem C75_mixed_dimensions_truncate : forall b0 b1, length (minmax b0 b1) = Nat.min (length b0) (length b1).
Proof. exact (fun b0 b1 => minmax_length b0 b1 false). Qed.
Print Assumptions C75_mixed_dimensions_truncate.

Example C75_case : mesh_prologue (DomGeometry true [PFloat 0; PFloat 1; PFloat 0; PFloat 1])
     (EdgeSizeFunction [PFloat (-1); PFloat 1; PFloat 0; PFloat 2] (PFloat (1/10))) [("max_iter"%string, VNum (PInt 0))]
  = Ok (minmax [PFloat 0; PFloat 1; PFloat 0; PFloat 1] [PFloat (-1); PFloat 1; PFloat 0; PFloat 2], PFloat (1/10), PInt 0).
Proof.
  unfold mesh_prologue.
  assert (E1 : parse_kwargs [("max_iter"%string, VNum (PInt 0))] = Ok tt) by reflexivity.
  assert (E2 : get_num "verbose" (PInt 1) [("max_iter"%string, VNum (PInt 0))] = Ok (PInt 1)) by reflexivity.
  assert (E3 : get_num "max_iter" (PInt 50) [("max_iter"%string, VNum (PInt 0))] = Ok (PInt 0)) by reflexivity.
  rewrite E1. cbn [rbind]. rewrite E2. cbn [rbind].
  destruct (verbosity_spec (PInt 1)) as (_ & _ & V1 & _). rewrite V1 by reflexivity.
  cbn [rbind unpack_domain check_bbox existsb is_int orb unpack_sizing fst snd negb].
  rewrite (proj2 (Rltb_false (nval (PFloat (1/10))) 0)) by (cbn; lra). rewrite E3. cbn [rbind].
  rewrite (proj2 (Rltb_false (nval (PInt 0)) 0)) by (cbn; lra). reflexivity.
Qed.
