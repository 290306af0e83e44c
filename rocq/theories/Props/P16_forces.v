(** Bar forces and the position update (C70). *)
From Coq Require Import Reals List Arith Bool Lra Lia Permutation.
From Verif Require Import Model.Base Model.Mesh Model.Forces Spec.MeshTopo Spec.Bars Proofs.MeshAux Proofs.EdgeProofs Proofs.ForceProofs.
Import ListNotations.
Local Open Scope R_scope.

(** The forces of all vertices cancel, axis by axis. *)
Theorem C70_forces_cancel : forall dim p t fh m j, mesh dim p t -> (forall x, 0 < fh x) -> (j < dim)%nat ->
  total (map (fun v => coord (compute_forces dim fh m p t) v j) (seq 0 (length p))) = 0.
Proof. intros dim p t fh m j (D & HP & HT & HV) HF Hj. unfold coord. apply forces_cancel; assumption. Qed.

(** The force on a vertex is the sum, over the vertices it shares a cell with (each once, however many cells they share), of
    the bar's own vector times a non-negative factor: the relative shortage of length, 0 when the bar is long enough.  Desired
    lengths are m * s * fh(midpoint) with the positive s for which the desired lengths without m have the total
    dim-volume of the actual lengths. *)
Theorem C70_force_law : forall dim p t fh m E, mesh dim p t -> (forall x, 0 < fh x) -> all_bars t E ->
  exists s, (E <> [] -> 0 < s /\
      total (map (fun e => (s * fh (middle dim p (fst e) (snd e))) ^ dim) E) = total (map (fun e => bar_length dim p (fst e) (snd e) ^ dim) E)) /\
    forall v j N, (v < length p)%nat -> (j < dim)%nat -> NoDup N -> (forall u, In u N <-> is_bar t v u) ->
      coord (compute_forces dim fh m p t) v j =
      total (map (fun u => push (bar_length dim p v u) (m * s * fh (middle dim p v u)) * (coord p v j - coord p u j)) N).
Proof.
  intros dim p t fh m E (D & HP & HT & HV) HF HE. exists (the_scale dim p t fh). split.
  - intros NE. pose proof (es_length dim t D HT E HE) as PE.
    assert (bars dim t <> []) as NB by (intros C; rewrite C in PE; apply Permutation_sym, Permutation_nil in PE; contradiction).
    destruct (scale_pow dim p t fh D HP HT HV HF NB) as [S1 S2]. split; [exact S1|].
    rewrite (total_perm _ _ (Permutation_map _ PE)), (total_perm _ _ (Permutation_map (fun e => bar_length dim p (fst e) (snd e) ^ dim) PE)), <- S2, <- total_scal.
    apply total_ext. intros e _. apply Rpow_mult_distr.
  - intros v j N Hv Hj HN HU. unfold coord at 1. apply force_neighbours; assumption.
Qed.

(** The factor is 0 exactly when the bar has its desired length or more, and pushes the ends apart otherwise. *)
Theorem C70_push_sign : forall dim p a b w, let l := bar_length dim p a b in
  0 < l /\ (w <= l -> push l w = 0) /\ (l < w -> 0 < push l w) /\ bar_length dim p b a = l.
Proof.
  intros dim p a b w l. assert (0 < l) as H by (apply bar_length_pos). split; [exact H|]. unfold push. repeat split.
  - intros L. rewrite Rmax_left by lra. unfold Rdiv. ring.
  - intros L. rewrite Rmax_right by lra. apply Rdiv_lt_0_compat; lra.
  - apply bar_length_sym.
Qed.

(** A vertex of no cell gets no force. *)
Theorem C70_isolated : forall dim p t fh m v j, mesh dim p t -> (forall x, 0 < fh x) -> (v < length p)%nat -> (j < dim)%nat ->
  (forall r, In r t -> ~ In v r) -> coord (compute_forces dim fh m p t) v j = 0.
Proof.
  intros dim p t fh m v j (D & HP & HT & HV) HF Hv Hj H. unfold coord. rewrite (force_neighbours dim p t fh m D HP HT HV v j []); [reflexivity|assumption..| |].
  - constructor.
  - intros u. split; [intros []|]. intros (r & I & i & k & Hi & _ & _ & E & _). apply (H r I). rewrite <- E. apply nth_In, Hi.
Qed.

(** With the multiplier used by generate_mesh (1.2 in 2D, 1.1 in 3D) a mesh with a bar always has a bar shorter than
    desired: the forces never all vanish because the bars are long enough. *)
Theorem C70_always_compressed : forall dim p t fh E, mesh dim p t -> (forall x, 0 < fh x) -> all_bars t E -> E <> [] ->
  L0mult dim = (if (dim =? 2)%nat then 12 / 10 else 11 / 10) /\
  forall s, 0 < s -> total (map (fun e => (s * fh (middle dim p (fst e) (snd e))) ^ dim) E) = total (map (fun e => bar_length dim p (fst e) (snd e) ^ dim) E) ->
  exists a b, In (a, b) E /\ bar_length dim p a b < L0mult dim * s * fh (middle dim p a b).
Proof.
  intros dim p t fh E (D & HP & HT & HV) HF HE NE. assert (L0mult dim = (if (dim =? 2)%nat then 12 / 10 else 11 / 10)) as EL.
  { unfold L0mult. destruct D as [-> | ->]; cbn; lra. }
  split; [exact EL|]. intros s Hs ES.
  set (T := total (map (fun e => bar_length dim p (fst e) (snd e) ^ dim) E)) in *.
  assert (0 < T) as HT'. { apply total_pos; [exact NE|]. intros e _. apply pow_lt, bar_length_pos. }
  assert (1 < L0mult dim) as M by (rewrite EL; destruct (dim =? 2)%nat; lra).
  assert (total (map (fun e => (L0mult dim * s * fh (middle dim p (fst e) (snd e))) ^ dim) E) = L0mult dim ^ dim * T) as EE.
  { rewrite <- ES, <- total_scal. apply total_ext. intros e _. rewrite !Rpow_mult_distr. ring. }
  assert (1 < L0mult dim ^ dim) as M1 by (apply Rlt_pow_R1; [exact M|lia]).
  destruct (total_lt (fun e => bar_length dim p (fst e) (snd e) ^ dim) (fun e => (L0mult dim * s * fh (middle dim p (fst e) (snd e))) ^ dim) E) as [[a b] [I L]].
  - rewrite EE. fold T. nra.
  - exists a, b. split; [exact I|]. cbn [fst snd] in L. apply Rnot_le_lt. intros C. apply Rlt_not_le in L. apply L. apply pow_incr. split; [|exact C].
    left. repeat apply Rmult_lt_0_compat; [lra|exact Hs|apply HF].
Qed.

(** The force step keeps the number and the dimension of the vertices, leaves the fixed ones where they are and moves every
    other one by delta_t times its force. *)
Theorem C70_force_step : forall dim p t fh m dt ifix, Forall (fun x => length x = dim) p ->
  let q := force_step dim fh m dt ifix p t in
  length q = length p /\ Forall (fun x => length x = dim) q /\
  (forall v, (v < length p)%nat -> In v ifix -> nth v q [] = nth v p []) /\
  (forall v j, (v < length p)%nat -> ~ In v ifix -> (j < dim)%nat ->
     coord q v j = coord p v j + dt * coord (compute_forces dim fh m p t) v j).
Proof.
  intros dim p t fh m dt ifix HP q. destruct (force_step_spec dim p t fh m dt ifix HP) as (L1 & L2 & L3). fold q in L1, L2, L3.
  assert (forall v, existsb (Nat.eqb v) ifix = true <-> In v ifix) as K.
  { intros v. rewrite existsb_exists. split; [intros [x [I E]]; apply Nat.eqb_eq in E; congruence|intros I; exists v; split; [exact I|apply Nat.eqb_refl]]. }
  split; [exact L1|]. split; [|split].
  - apply Forall_forall. intros x I. destruct (In_nth q x [] I) as (v & Hv & <-). apply L2. rewrite <- L1. exact Hv.
  - intros v Hv I. apply nth_ext with (d := 0) (d' := 0); [rewrite L2 by exact Hv; rewrite Forall_forall in HP; symmetry; apply HP, nth_In, Hv|].
    intros j Hj. rewrite L2 in Hj by exact Hv. pose proof (L3 v j Hv Hj) as E. unfold coord in E at 1 2. rewrite (proj2 (K v) I) in E. exact E.
  - intros v j Hv NI Hj. rewrite L3 by assumption. destruct (existsb (Nat.eqb v) ifix) eqn:E; [apply K in E; contradiction|reflexivity].
Qed.

(** Without fixed vertices the force step keeps the sum of the positions: the mesh as a whole does not drift. *)
Theorem C70_no_drift : forall dim p t fh m dt j, mesh dim p t -> (forall x, 0 < fh x) -> (j < dim)%nat ->
  total (map (fun v => coord (force_step dim fh m dt [] p t) v j) (seq 0 (length p))) = total (map (fun v => coord p v j) (seq 0 (length p))).
Proof.
  intros dim p t fh m dt j M HF Hj. pose proof M as (D & HP & HT & HV). pose proof (force_step_spec dim p t fh m dt [] HP) as (_ & _ & L3).
  rewrite (total_ext _ (fun v => coord p v j + dt * coord (compute_forces dim fh m p t) v j)).
  - rewrite total_plus, total_scal, C70_forces_cancel by assumption. lra.
  - intros v I. apply in_seq in I. rewrite L3 by (lia || assumption). reflexivity.
Qed.

(** the hypotheses are met by a two-triangle mesh and a non-constant size *)
Example C70_case :
  let p := [[0;0];[1;0];[0;1];[1;1]] in let t := [[0;1;2];[1;3;2]]%nat in
  mesh 2 p t /\ (forall x : list R, 0 < 1 + Rabs (nth 0 x 0)) /\
  all_bars t [(0,1);(0,2);(1,2);(1,3);(2,3)]%nat /\ (forall u, In u [0;2;3]%nat <-> is_bar t 1%nat u).
Proof.
  intros p t. assert (mesh 2 p t) as M.
  { split; [left; reflexivity|]. split; [repeat constructor|]. split.
    - intros r [<- | [<- | []]]; (split; [reflexivity|]); repeat (apply NoDup_cons; [cbn; lia|]); apply NoDup_nil.
    - intros r v [<- | [<- | []]] I; cbn in I; cbn; lia. }
  assert (all_bars t [(0,1);(0,2);(1,2);(1,3);(2,3)]%nat) as B.
  { destruct M as (D & _ & HT & _). pose proof (es_bars 2 t D HT) as H. cbn in H. exact H. }
  split; [exact M|]. split; [intros x; pose proof (Rabs_pos (nth 0 x 0)); lra|]. split; [exact B|].
  intros u. destruct M as (D & _ & HT & _). destruct B as [_ B]. split.
  - intros [<- | [<- | [<- | []]]]; [apply is_bar_sym, B|apply B|apply B]; cbn; intuition congruence.
  - intros H. assert (1%nat <> u) as N by (apply (is_bar_neq 2 t HT), H). destruct (lt_dec 1 u) as [L|G].
    + assert (In (1%nat, u) [(0,1);(0,2);(1,2);(1,3);(2,3)]%nat) as I by (apply B; split; assumption). cbn in I. repeat destruct I as [I|I]; inversion I; subst; cbn; intuition congruence.
    + assert (In (u, 1%nat) [(0,1);(0,2);(1,2);(1,3);(2,3)]%nat) as I by (apply B; split; [lia|apply is_bar_sym, H]). cbn in I. repeat destruct I as [I|I]; inversion I; subst; cbn; intuition congruence.
Qed.

Print Assumptions C70_forces_cancel.
Print Assumptions C70_force_law.
Print Assumptions C70_push_sign.
Print Assumptions C70_isolated.
Print Assumptions C70_always_compressed.
Print Assumptions C70_force_step.
Print Assumptions C70_no_drift.
