(** C125: smoothing and the numbering of the mesh.  [renumbered], [permutes], [relabelled]: Spec/Renumber.v; [no_tie]: Spec/Smooth.v. *)
From Coq Require Import List ZArith Reals Bool Arith Lia Lra Permutation.
From Verif Require Import Model.Base Model.SDF Model.Simplex Model.Mesh Model.Laplace Spec.MeshTopo Spec.Smooth Spec.Renumber Proofs.ListAux Proofs.MeshAux
  Proofs.EdgeProofs Proofs.TopoProofs Proofs.LaplaceProofs Proofs.LaplaceFixed Proofs.LinSolve Proofs.RenumberProofs Proofs.SmoothRenumber Props.P50_renumber Props.P06_mesh Props.P08_laplace.
Import ListNotations.
Local Open Scope R_scope.

Lemma boundary_same pi t t' n v : renumbered pi t t' -> permutes pi n -> (forall r, In r t -> simplex 3 r) -> (forall r v, In r t -> In v r -> (v < n)%nat) -> (v < n)%nat ->
  (on_boundary t' (pi v) <-> on_boundary t v).
Proof.
  intros RN PI HT HV Lv. pose proof (dn pi t n PI HV) as DN. pose proof (HT' pi t t' n RN PI HT HV) as HTn.
  rewrite (boundary_compute t' (pi v) HTn), (boundary_compute t v HT).
  pose proof (vertices_ren _ _ uniqR0_ok uniqR0_ok _ _ _ RN DN 2 (or_introl eq_refl) HT) as PV. split; intros H.
  - apply (Permutation_in _ (Permutation_sym PV)) in H. apply in_map_iff in H. destruct H as [w [E Hw]].
    assert (w < n)%nat as Lw.
    { apply (boundary_compute t w HT) in Hw. destruct Hw as [f [_ [_ [C F]]]]. destruct (on_some f t C) as [r [Hr HF]]. apply (HV r w Hr (HF w F)). }
    apply (proj2 PI) in E; [subst; exact Hw|assumption..].
  - apply (Permutation_in _ PV), in_map, H.
Qed.

(** other numbers for the vertices, another order of the triangles and of their corners: the same exception, or the same mesh under the new numbers *)
Theorem C125_numbering : forall uniq uniq' pi p t p' t' max_iter tol pfix, uniq_ok uniq -> uniq_ok uniq' ->
  (forall r, In r t -> simplex 3 r) -> (forall r v, In r t -> In v r -> (v < length p)%nat) -> (forall x, In x p -> length x = 2%nat) ->
  (forall q, In q (asked pfix) -> length q = 2%nat) -> (forall q, In q (asked pfix) -> no_tie p q) ->
  permutes pi (length p) -> renumbered pi t t' -> relabelled pi p p' ->
  match laplacian2 uniq p t max_iter tol pfix, laplacian2 uniq' p' t' max_iter tol pfix with
  | Ok (q, s), Ok (q', s') => s = t /\ s' = t' /\ relabelled pi q q'
  | Err e, Err e' => e = e'
  | _, _ => False
  end.
Proof.
  intros uniq uniq' pi p t p' t' k tol pfix HU HU' HT HV HP HQ NT PI RN RP.
  pose proof (HT' pi t t' _ RN PI HT HV) as HTn. pose proof (HV' pi t t' _ RN PI HV) as HVn.
  destruct (used_dec t (length p)) as [[v [L N]]|US].
  { rewrite (laplacian2_unused uniq p t k tol pfix v HT L N).
    rewrite (laplacian2_unused uniq' p' t' k tol pfix (pi v) HTn); [auto| |].
    - rewrite (proj1 RP). apply (proj1 PI), L.
    - intros r Hr Hv. destruct (used_preimage pi t t' RN (pi v) ltac:(exists r; split; assumption)) as [w [[s [Hs Hw]] E]].
      apply (proj2 PI) in E; [subst; exact (N s Hs Hw)|apply (HV s w Hs Hw)|exact L]. }
  assert (forall v, (v < length p')%nat -> exists r, In r t' /\ In v r) as USn by (rewrite (proj1 RP); exact (US' pi t t' _ RN PI US)).
  pose proof (proj2 (boundary_vertices_spec uniq 2 t (or_introl eq_refl) HU HT)) as BS. pose proof (proj2 (boundary_vertices_spec uniq' 2 t' (or_introl eq_refl) HU' HTn)) as BSn.
  pose proof (fun v Lv => boundary_same pi t t' (length p) v RN PI HT HV Lv) as SAME.
  assert (forall v, (v < length p)%nat -> (In (pi v) (get_boundary_vertices uniq' 2 t') <-> In v (get_boundary_vertices uniq 2 t))) as BB.
  { intros v Lv. rewrite BS, BSn. apply (SAME v Lv). }
  assert (forall v, In v (get_boundary_vertices uniq 2 t) -> (v < length p)%nat) as BL.
  { intros v H. apply BS in H. destruct H as [f [_ [_ [C F]]]]. destruct (on_some f t C) as [r [Hr HF]]. apply (HV r v Hr (HF v F)). }
  assert (forall v, In v (get_boundary_vertices uniq' 2 t') -> (v < length p)%nat) as BLn.
  { intros v H. apply BSn in H. destruct H as [f [_ [_ [C F]]]]. destruct (on_some f t' C) as [r [Hr HF]]. apply (HVn r v Hr (HF v F)). }
  unfold laplacian2.
  destruct (existsb _ (seq 0 (length p))) eqn:E.
  { apply (unused_test p t HT) in E. destruct E as [v [L H]]. destruct (US v L) as [r [Hr Hv]]. destruct (H r Hr Hv). }
  destruct (existsb _ (seq 0 (length p'))) eqn:En.
  { apply (unused_test p' t' HTn) in En. destruct En as [v [L H]]. destruct (USn v L) as [r [Hr Hv]]. destruct (H r Hr Hv). }
  fold (asked pfix).
  assert (get_boundary_vertices uniq 2 t = [] <-> get_boundary_vertices uniq' 2 t' = []) as EM.
  { split; intros H.
    - destruct (get_boundary_vertices uniq' 2 t') as [|w l]; [reflexivity|]. destruct (permutes_onto pi _ w PI (BLn w (or_introl eq_refl))) as [v [Lv Ew]].
      rewrite H in BB. destruct (proj1 (BB v Lv)). left. congruence.
    - destruct (get_boundary_vertices uniq 2 t) as [|w l]; [reflexivity|]. rewrite H in BB. destruct (proj2 (BB w (BL w (or_introl eq_refl)))). left. reflexivity. }
  assert (get_boundary_vertices uniq 2 t <> [] -> relabelled pi
    (lap_loop k t (get_boundary_vertices uniq 2 t ++ map (fun q => closest_node q p) (asked pfix)) (get_edges 2 t) tol (edge_lens (get_edges 2 t) p) p)
    (lap_loop k t' (get_boundary_vertices uniq' 2 t' ++ map (fun q => closest_node q p') (asked pfix)) (get_edges 2 t') tol (edge_lens (get_edges 2 t') p') p')) as K.
  { intros NB. destruct (get_boundary_vertices uniq 2 t) as [|b0 bs] eqn:EB; [congruence|]. rewrite <- EB in *.
    assert (In b0 (get_boundary_vertices uniq 2 t)) as I0 by (rewrite EB; left; reflexivity). pose proof (BL b0 I0) as L0.
    assert (p <> []) as NP by (intros ->; cbn in L0; lia).
    apply (loop_same pi t t' (length p) RN PI HT HV US); try reflexivity; try assumption.
    - intros ->. destruct (US b0 L0) as [r [[] _]].
    - intros v Lv. rewrite !in_app_iff, !in_map_iff. rewrite (BB v Lv). split; (intros [A|[q [Eq Iq]]]; [left; exact A|right]); exists q; (split; [|exact Iq]).
      + rewrite (closest_same pi p p' q PI RP HP (HQ q Iq) NP (NT q Iq)) in Eq. apply (proj2 PI) in Eq; [exact Eq| |exact Lv]. apply (closest_nearest q p (HQ q Iq) HP NP).
      + rewrite (closest_same pi p p' q PI RP HP (HQ q Iq) NP (NT q Iq)). congruence. }
  destruct (get_boundary_vertices uniq 2 t) as [|b0 bs] eqn:EB.
  - rewrite (proj1 EM eq_refl). destruct pfix as [[|]|]; destruct k; cbn [lap_loop]; auto.
  - destruct (get_boundary_vertices uniq' 2 t') as [|b1 bs1]; [discriminate (proj2 EM eq_refl)|]. specialize (K ltac:(discriminate)).
    destruct pfix as [[|]|]; destruct k; auto.
Qed.
Print Assumptions C125_numbering.

Theorem C125_fixed_point : forall uniq uniq' pi p t p' t' x x', uniq_ok uniq -> uniq_ok uniq' ->
  (forall r, In r t -> simplex 3 r) -> (forall r v, In r t -> In v r -> (v < length p)%nat) -> (forall v, (v < length p)%nat -> exists r, In r t /\ In v r) ->
  permutes pi (length p) -> renumbered pi t t' -> relabelled pi p p' -> relabelled pi x x' ->
  lap_solves uniq p t x -> lap_solves uniq' p' t' x'.
Proof.
  intros uniq uniq' pi p t p' t' x x' HU HU' HT HV US PI RN RP RX [LX HS].
  pose proof (HT' pi t t' _ RN PI HT HV) as HTn. pose proof (HV' pi t t' _ RN PI HV) as HVn.
  split; [rewrite (proj1 RX), (proj1 RP); exact LX|]. rewrite (proj1 RP). intros w j Lw Lj. destruct (permutes_onto pi _ w PI Lw) as [v [Lv <-]].
  specialize (HS v j Lv Lj). unfold lap_matrix, lap_rhs in *.
  assert (existsb (Nat.eqb (pi v)) (get_boundary_vertices uniq' 2 t') = existsb (Nat.eqb v) (get_boundary_vertices uniq 2 t)) as EB.
  { apply eq_true_iff_eq. rewrite !mem_fixed. rewrite (proj2 (boundary_vertices_spec uniq 2 t (or_introl eq_refl) HU HT)), (proj2 (boundary_vertices_spec uniq' 2 t' (or_introl eq_refl) HU' HTn)).
    apply (boundary_same pi t t' (length p) v RN PI HT HV Lv). }
  rewrite EB. rewrite rtotal_seq in *. assert (forall u, (u < length p)%nat -> nth (pi u) x' [] = nth u x []) as NX by (intros u Lu; apply RX; lia).
  destruct (existsb (Nat.eqb v) (get_boundary_vertices uniq 2 t)).
  - rewrite (proj2 RP v Lv). rewrite <- HS. rewrite (sum_reindex pi _ _ PI). apply sum_ext. intros u Lu. rewrite NX by exact Lu. f_equal.
    destruct (Nat.eqb_spec v u) as [->|N]; [rewrite Nat.eqb_refl; reflexivity|]. destruct (Nat.eqb_spec (pi v) (pi u)) as [K|_]; [destruct (N (proj2 PI v u Lv Lu K))|reflexivity].
  - rewrite (coo_row (length p) t' (pi v) _ HTn HVn). rewrite (coo_row (length p) t v _ HT HV) in HS.
    rewrite (sum_reindex pi _ (links t' (pi v)) PI), (sum_reindex pi _ (fun u => links t' (pi v) u * nth j (nth u x' []) 0) PI), NX by exact Lv.
    refine (eq_trans _ HS). f_equal; [f_equal|]; apply sum_ext; intros u Lu; rewrite ?NX by exact Lu; rewrite (links_same pi t t' (length p) RN PI HV US) by assumption; reflexivity.
Qed.
Print Assumptions C125_fixed_point.

(** when two vertices are equally near to a point that is to stay, the numbering decides which one stays *)
Definition swap04 (v : nat) : nat := match v with 0 => 4 | 4 => 0 | _ => v end%nat.
Definition fan_p' : list (list R) := [[1;1];[4;0];[4;4];[0;4];[0;0]].
Definition fan_t' : list row := [[4;1;0];[1;2;0];[2;3;0];[3;4;0]]%nat.
Lemma fan_facts : (forall r, In r fan_t -> simplex 3 r) /\ (forall r v, In r fan_t -> In v r -> (v < length fan_p)%nat) /\ (forall x, In x fan_p -> length x = 2%nat) /\
  (forall v, (v < length fan_p)%nat -> exists r, In r fan_t /\ In v r) /\ permutes swap04 (length fan_p) /\ renumbered swap04 fan_t fan_t' /\ relabelled swap04 fan_p fan_p'.
Proof.
  split; [tri_ok|]. split; [intros r v Hr Hv; cbn in Hr; repeat (destruct Hr as [<- | Hr]; [cbn in *; lia|]); destruct Hr|]. split; [rows2|]. split; [|split; [|split]].
  - intros v Lv. cbn in Lv. destruct v as [|[|[|[|[|v]]]]]; [exists [0;1;4]%nat|exists [0;1;4]%nat|exists [1;2;4]%nat|exists [2;3;4]%nat|exists [0;1;4]%nat|lia]; cbn; tauto.
  - split; cbn [length fan_p].
    + intros v Lv. destruct v as [|[|[|[|[|v]]]]]; cbn; lia.
    + intros v w Lv Lw. destruct v as [|[|[|[|[|v]]]]]; try lia; destruct w as [|[|[|[|[|w]]]]]; cbn; lia.
  - exists fan_t'. split; [apply Permutation_refl|]. repeat (apply Forall2_cons; [apply Permutation_refl|]). apply Forall2_nil.
  - split; [reflexivity|]. intros v Lv. cbn in Lv. destruct v as [|[|[|[|[|v]]]]]; try lia; reflexivity.
Qed.
Theorem C125_tie_refuted : exists pi p t p' t' q,
  (forall r, In r t -> simplex 3 r) /\ (forall r v, In r t -> In v r -> (v < length p)%nat) /\ permutes pi (length p) /\ renumbered pi t t' /\ relabelled pi p p' /\
  forall uniq uniq' tol, uniq_ok uniq -> uniq_ok uniq' -> exists p1 p2,
    laplacian2 uniq p t 1 tol (Some [q]) = Ok (p1, t) /\ laplacian2 uniq' p' t' 1 tol (Some [q]) = Ok (p2, t') /\ ~ relabelled pi p1 p2.
Proof.
  destruct fan_facts as [HT [HV [HP [US [PI [RN RP]]]]]]. exists swap04, fan_p, fan_t, fan_p', fan_t', [1/2; 1/2].
  split; [exact HT|]. split; [exact HV|]. split; [exact PI|]. split; [exact RN|]. split; [exact RP|]. intros uniq uniq' tol HU HU'.
  pose proof (HT' swap04 fan_t fan_t' _ RN PI HT HV) as HTn. pose proof (HV' swap04 fan_t fan_t' _ RN PI HV) as HVn. pose proof (US' swap04 fan_t fan_t' _ RN PI US) as USn.
  destruct C52_case as [_ [[vb B] [N4 _]]].
  assert (exists v, on_boundary fan_t' v) as Bn. { exists 1%nat. apply (boundary_compute fan_t' 1 HTn). vm_compute. tauto. }
  destruct (proj1 (C52_succeeds uniq fan_p fan_t 1 tol (Some [[1/2;1/2]]) HU HT US) ltac:(exists vb; exact B) ltac:(discriminate)) as [p1 E1].
  destruct (proj1 (C52_succeeds uniq' fan_p' fan_t' 1 tol (Some [[1/2;1/2]]) HU' HTn USn) Bn ltac:(discriminate)) as [p2 E2].
  exists p1, p2. split; [exact E1|]. split; [exact E2|]. intros [_ RL].
  assert (forall q, In q (asked (Some [[1/2;1/2]])) -> length q = 2%nat) as HQ by rows2.
  assert (nth 0 p2 [] = [1;1]) as P2.
  { destruct (C52_keeps_fixed_vertices_and_hull uniq' fan_p' fan_t' 1 tol (Some [[1/2;1/2]]) p2 fan_t' HU' HTn HVn ltac:(rows2) HQ E2) as [_ [_ [K _]]].
    rewrite (K [1/2;1/2] 0%nat); [reflexivity|left; reflexivity|]. split; [cbn; lia|]. split; intros u Lu; [|lia]. cbn in Lu.
    destruct u as [|[|[|[|[|u]]]]]; try lia; unfold gap2; cbn; lra. }
  destruct (laplacian2_used uniq fan_p fan_t 1 tol (Some [[1/2;1/2]]) p1 fan_t HT US E1) as [_ EL].
  pose proof (fixed_mem uniq fan_t fan_p (Some [[1/2;1/2]]) HU HT HP ltac:(discriminate) HQ) as FM.
  set (fx := get_boundary_vertices uniq 2 fan_t ++ map (fun q => closest_node q fan_p) (asked (Some [[1/2;1/2]]))) in *.
  assert (p1 = lap_sweep fan_t fx fan_p) as ES by (cbn [lap_loop] in EL; destruct (Rltb _ tol) in EL; exact EL).
  pose proof (sweep_step fan_t fx fan_p _ HT HV HP US FM) as ST. rewrite <- ES in ST.
  destruct (proj2 ST 4%nat ltac:(cbn; lia)) as [_ [_ A]]. destruct A as [_ A].
  { intros [H|[q [Iq NR]]]; [exact (N4 H)|]. destruct Iq as [<- |[]].
    assert (nearest fan_p [1/2;1/2] 0) as N0.
    { split; [cbn; lia|]. split; intros u Lu; [|lia]. cbn in Lu. destruct u as [|[|[|[|[|u]]]]]; try lia; unfold gap2; cbn; lra. }
    discriminate (nearest_unique fan_p [1/2;1/2] 4 0 NR N0). }
  specialize (A 0%nat ltac:(lia)). specialize (RL 4%nat). cbn [swap04] in RL. rewrite P2 in RL.
  assert (4 < length p1)%nat as L4 by (rewrite (proj1 ST); cbn; lia). specialize (RL L4). unfold coord in A at 1. rewrite <- RL in A. unfold links, coord in A. cbn in A. lra.
Qed.
Print Assumptions C125_tie_refuted.
(** the hypotheses hold for the fan and a point near one vertex only *)
Example C125_case : permutes swap04 (length fan_p) /\ renumbered swap04 fan_t fan_t' /\ relabelled swap04 fan_p fan_p' /\ no_tie fan_p [1; 2].
Proof.
  destruct fan_facts as [_ [_ [_ [_ [PI [RN RP]]]]]]. split; [exact PI|]. split; [exact RN|]. split; [exact RP|].
  assert (forall u, (u < length fan_p)%nat -> (forall w, (w < length fan_p)%nat -> gap2 (nth u fan_p []) [1; 2] <= gap2 (nth w fan_p []) [1; 2]) -> u = 4%nat) as K.
  { intros u Lu M. specialize (M 4%nat ltac:(cbn; lia)). cbn in Lu. destruct u as [|[|[|[|[|u]]]]]; try lia; unfold gap2 in M; cbn in M; lra. }
  intros u v Lu Lv Mu Mv. rewrite (K u Lu Mu), (K v Lv Mv). reflexivity.
Qed.
