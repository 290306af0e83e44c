(** Linear systems: fewer equations than unknowns leave a non-zero solution of the homogeneous system; a square system with only the zero solution is solvable. *)
From Coq Require Import List Arith Reals Lra Lia.
From Verif Require Import Model.Base Model.Mesh Model.Laplace Spec.MeshTopo Spec.Smooth Proofs.MeshAux Proofs.EdgeProofs Proofs.TopoProofs Proofs.LaplaceProofs Proofs.LaplaceFixed.
Import ListNotations.
Local Open Scope R_scope.

Lemma some_nonzero n (a : nat -> R) : (exists j, (j < n)%nat /\ a j <> 0) \/ (forall j, (j < n)%nat -> a j = 0).
Proof.
  induction n as [|n [(j & J & H) | H]]; [right; lia | left; exists j; split; [lia | exact H] |].
  destruct (Req_EM_T (a n) 0) as [E|E]; [right | left; exists n; split; [lia | exact E]].
  intros j J. destruct (Nat.eq_dec j n) as [->|N]; [exact E | apply H; lia].
Qed.
Definition skip (j0 k : nat) : nat := if (k <? j0)%nat then k else S k.
Lemma sum_snoc n f : sum_below (S n) f = sum_below n f + f n.
Proof. reflexivity. Qed.
Lemma sum_skip n f j0 : (j0 <= n)%nat -> sum_below (S n) f = f j0 + sum_below n (fun k => f (skip j0 k)).
Proof.
  induction n as [|n IH]; intro J.
  - replace j0 with 0%nat by lia. rewrite sum_snoc. cbn [sum_below]. lra.
  - rewrite sum_snoc. destruct (Nat.eq_dec j0 (S n)) as [->|N].
    + rewrite (sum_ext (S n) (fun k => f (skip (S n) k)) f); [lra|]. intros u U. unfold skip. destruct (Nat.ltb_spec u (S n)); [reflexivity | lia].
    + rewrite IH, (sum_snoc n (fun k => f (skip j0 k))) by lia. unfold skip at 3. destruct (Nat.ltb_spec n j0); [lia | lra].
Qed.
Lemma kernel : forall m n (A : nat -> nat -> R), (m < n)%nat ->
  exists x, (exists j, (j < n)%nat /\ x j <> 0) /\ forall i, (i < m)%nat -> sum_below n (fun j => A i j * x j) = 0.
Proof.
  induction m as [|m IH]; intros n A N.
  - exists (fun _ => 1). split; [exists O; split; [lia | lra] | lia].
  - destruct (some_nonzero n (A m)) as [(j0 & J & P) | Z].
    + destruct n as [|n]; [lia|].
      destruct (IH n (fun i k => A i (skip j0 k) - A i j0 * (A m (skip j0 k) / A m j0)) ltac:(lia)) as (y & (k & K & Y) & Sy).
      pose (x := fun j => if (j <? j0)%nat then y j else if (j =? j0)%nat then - (sum_below n (fun k => A m (skip j0 k) * y k)) / A m j0 else y (pred j)).
      assert (X0 : x j0 = - (sum_below n (fun k => A m (skip j0 k) * y k)) / A m j0).
      { unfold x. rewrite Nat.ltb_irrefl, Nat.eqb_refl. reflexivity. }
      assert (Xs : forall k, x (skip j0 k) = y k).
      { intro k'. unfold x, skip. destruct (Nat.ltb_spec k' j0) as [L|L].
        - destruct (Nat.ltb_spec k' j0); [reflexivity | lia].
        - destruct (Nat.ltb_spec (S k') j0); [lia|]. destruct (Nat.eqb_spec (S k') j0); [lia | reflexivity]. }
      exists x. split.
      * exists (skip j0 k). split; [unfold skip; destruct (Nat.ltb_spec k j0); lia | rewrite Xs; exact Y].
      * intros i I. rewrite (sum_skip n (fun j => A i j * x j) j0) by lia. cbv beta. rewrite X0.
        rewrite (sum_ext n (fun k => A i (skip j0 k) * x (skip j0 k)) (fun k => A i (skip j0 k) * y k)) by (intros; rewrite Xs; reflexivity).
        destruct (Nat.eq_dec i m) as [->|Ni].
        -- field. exact P.
        -- pose proof (Sy i ltac:(lia)) as E. cbv beta in E.
           rewrite (sum_ext n _ (fun k => A i (skip j0 k) * y k + (- (A i j0 / A m j0)) * (A m (skip j0 k) * y k))) in E
             by (intros; field; exact P).
           rewrite sum_plus, sum_scal in E. rewrite <- E. field. exact P.
    + destruct (IH n A ltac:(lia)) as (x & X & Sy). exists x. split; [exact X|]. intros i I. destruct (Nat.eq_dec i m) as [->|Ni]; [| apply Sy; lia].
      rewrite (sum_ext n _ (fun _ => 0)); [apply sum_zero|]. intros u U. rewrite Z by exact U. lra.
Qed.
Lemma solvable n (A : nat -> nat -> R) :
  (forall x, (forall i, (i < n)%nat -> sum_below n (fun j => A i j * x j) = 0) -> forall j, (j < n)%nat -> x j = 0) ->
  forall b, exists x, forall i, (i < n)%nat -> sum_below n (fun j => A i j * x j) = b i.
Proof.
  intros U b. destruct (kernel n (S n) (fun i j => if (j <? n)%nat then A i j else - b i) ltac:(lia)) as (x & (j & J & N) & Sy).
  assert (S' : forall i, (i < n)%nat -> sum_below n (fun j => A i j * x j) = b i * x n).
  { intros i I. pose proof (Sy i I) as E. rewrite sum_snoc, Nat.ltb_irrefl in E. cbv beta in E.
    rewrite (sum_ext n _ (fun j => A i j * x j)) in E by (intros u V; destruct (Nat.ltb_spec u n); [reflexivity | lia]). lra. }
  destruct (Req_EM_T (x n) 0) as [E|E].
  - exfalso. apply N. destruct (Nat.eq_dec j n) as [->|Nj]; [exact E|]. apply (U x); [| lia]. intros i I. rewrite S', E by exact I. lra.
  - exists (fun j => / x n * x j). intros i I. rewrite (sum_ext n _ (fun j => / x n * (A i j * x j))) by (intros; ring).
    rewrite sum_scal, S' by exact I. field. exact E.
Qed.

(** laplacian2_fixed_point: the system has a solution if every vertex reaches the boundary *)
Lemma solves_exists uniq p t : uniq_ok uniq -> triangles t -> valid (length p) t ->
  (forall v, (v < length p)%nat -> reaches_boundary t v) -> exists x, lap_solves uniq p t x.
Proof.
  intros U T V B. set (n := length p) in *. set (bnd := get_boundary_vertices uniq 2 t).
  assert (Z : forall x, (forall i, (i < n)%nat -> sum_below n (fun j => lap_matrix bnd t i j * x j) = 0) -> forall j, (j < n)%nat -> x j = 0).
  { intros x Sx j J. pose (p0 := repeat [0; 0] n).
    assert (L0 : length p0 = n) by apply repeat_length.
    assert (C0 : forall v k, (k < 2)%nat -> nth k (nth v p0 []) 0 = 0).
    { intros v k K. destruct (Nat.lt_ge_cases v n) as [L|G].
      - unfold p0. rewrite (nth_indep _ [] [0; 0]) by (rewrite repeat_length; exact L). rewrite nth_repeat. destruct k as [|[|k]]; [reflexivity | reflexivity | lia].
      - rewrite (nth_overflow p0) by (rewrite L0; exact G). destruct k; reflexivity. }
    assert (R0 : forall v k, (k < 2)%nat -> lap_rhs bnd p0 v k = 0).
    { intros v k K. unfold lap_rhs. rewrite C0 by exact K. destruct (existsb _ _); reflexivity. }
    pose (x0 := map (fun v => [x v; 0]) (seq 0 n)).
    assert (X0 : forall v, (v < n)%nat -> nth v x0 [] = [x v; 0]).
    { intros v L. unfold x0. rewrite nth_map' with (d' := 0%nat) by (rewrite seq_length; exact L). rewrite seq_nth by exact L. reflexivity. }
    assert (S0 : lap_solves uniq p0 t x0).
    { split; [unfold x0; rewrite map_length, seq_length, L0; reflexivity|]. intros v k L K. rewrite L0 in L |- *. fold bnd. rewrite R0 by exact K.
      rewrite rtotal_seq. destruct k as [|[|k]]; [| | lia].
      - rewrite (sum_ext n _ (fun j => lap_matrix bnd t v j * x j)) by (intros u W; rewrite X0 by exact W; reflexivity). apply Sx. exact L.
      - rewrite (sum_ext n _ (fun _ => 0)) by (intros u W; rewrite X0 by exact W; cbn [nth]; lra). apply sum_zero. }
    assert (S1 : lap_solves uniq p0 t p0).
    { split; [reflexivity|]. intros v k L K. fold bnd. rewrite R0 by exact K. rewrite rtotal_seq.
      rewrite (sum_ext (length p0) _ (fun _ => 0)) by (intros u W; rewrite C0 by exact K; lra). apply sum_zero. }
    pose proof (solves_unique uniq p0 t x0 p0 U T) as Q. rewrite L0 in Q. specialize (Q V B S0 S1 j O J ltac:(lia)).
    unfold coord in Q. rewrite C0 in Q by lia. rewrite X0 in Q by exact J. exact Q. }
  destruct (solvable n (lap_matrix bnd t) Z (fun v => lap_rhs bnd p v 0)) as (x & X).
  destruct (solvable n (lap_matrix bnd t) Z (fun v => lap_rhs bnd p v 1)) as (y & Y).
  exists (map (fun v => [x v; y v]) (seq 0 n)). split; [rewrite map_length, seq_length; reflexivity|].
  intros v k L K. fold n in L |- *. fold bnd. rewrite rtotal_seq.
  assert (N : forall u, (u < n)%nat -> nth u (map (fun v => [x v; y v]) (seq 0 n)) [] = [x u; y u]).
  { intros u W. rewrite nth_map' with (d' := 0%nat) by (rewrite seq_length; exact W). rewrite seq_nth by exact W. reflexivity. }
  destruct k as [|[|k]]; [| | lia].
  - rewrite (sum_ext n _ (fun j => lap_matrix bnd t v j * x j)) by (intros u W; rewrite N by exact W; reflexivity). apply X. exact L.
  - rewrite (sum_ext n _ (fun j => lap_matrix bnd t v j * y j)) by (intros u W; rewrite N by exact W; reflexivity). apply Y. exact L.
Qed.
(** vertices of no triangle are not determined *)
Lemma solves_iff uniq p t x : uniq_ok uniq -> triangles t -> valid (length p) t ->
  (lap_solves uniq p t x <-> length x = length p /\
    (forall v j, (v < length p)%nat -> (j < 2)%nat -> on_boundary t v -> coord x v j = coord p v j) /\
    (forall v j, (v < length p)%nat -> (j < 2)%nat -> ~ on_boundary t v ->
      coord x v j * sum_below (length p) (links t v) = sum_below (length p) (fun u => links t v u * coord x u j))).
Proof.
  intros U T V. split.
  - intros H. repeat split.
    + exact (proj1 H).
    + intros v j L J B. exact (solves_boundary uniq p t x v U T H L B j J).
    + intros v j L J B. exact (solves_interior uniq p t x v U T V H L B j J).
  - intros (L & B & I). split; [exact L|]. intros v j Lv J. rewrite rtotal_seq. unfold lap_matrix, lap_rhs.
    destruct (existsb (Nat.eqb v) (get_boundary_vertices uniq 2 t)) eqn:E.
    + apply mem_fixed, (proj2 (boundary_vertices_spec uniq 2 t (or_introl eq_refl) U T)) in E. change (nth j (nth v p []) 0) with (coord p v j). rewrite <- (B v j Lv J E).
      unfold coord. rewrite <- (sum_delta (length p) v (fun u => nth j (nth u x []) 0) Lv). apply sum_ext. intros u _. rewrite (Nat.eqb_sym v u). reflexivity.
    + rewrite (coo_row (length p) t v (fun u => nth j (nth u x []) 0) T V). assert (N : ~ on_boundary t v).
      { intro Hb. rewrite (proj2 (mem_fixed _ _) (proj2 (proj2 (boundary_vertices_spec uniq 2 t (or_introl eq_refl) U T) v) Hb)) in E. discriminate. }
      pose proof (I v j Lv J N) as Q. unfold coord in Q. lra.
Qed.
Lemma entities_unused t v f : (forall r, In r t -> ~ In v r) -> In v f -> entities_on f t = 0%nat.
Proof.
  intros N F. unfold entities_on. induction t as [|r t IH]; [reflexivity|]. cbn [filter].
  destruct (forallb (has r) f) eqn:E; [| exact (IH (fun r' H => N r' (or_intror H)))].
  rewrite forallb_forall in E. apply E, has_in in F. destruct (N r (or_introl eq_refl) F).
Qed.
Lemma links_unused t v u : (forall r, In r t -> ~ In v r) -> links t u v = 0 /\ links t v u = 0.
Proof.
  intros N. unfold links. rewrite !(entities_unused t v) by (assumption || (cbn; tauto)). split; destruct (_ =? _)%nat; reflexivity.
Qed.
Lemma solves_unused uniq p t x y v : uniq_ok uniq -> triangles t -> valid (length p) t -> (forall r, In r t -> ~ In v r) ->
  lap_solves uniq p t x -> length y = length p -> (forall u, u <> v -> nth u y [] = nth u x []) -> lap_solves uniq p t y.
Proof.
  intros U T V N HS L E. apply (solves_iff uniq p t x U T V) in HS. destruct HS as (_ & B & I). apply (solves_iff uniq p t y U T V).
  assert (C : forall u j, u <> v -> coord y u j = coord x u j) by (intros u j Nu; unfold coord; rewrite E by exact Nu; reflexivity).
  split; [exact L|]. split.
  - intros w j Lw J Bw. rewrite C; [exact (B w j Lw J Bw)|]. intros ->. destruct Bw as (f & _ & _ & O & F). rewrite (entities_unused t v f N F) in O. discriminate.
  - intros w j Lw J Bw. destruct (Nat.eq_dec w v) as [->|Nw].
    + rewrite (sum_ext _ (links t v) (fun _ => 0)), (sum_ext _ (fun u => links t v u * coord y u j) (fun _ => 0)), !sum_zero; [ring | |];
        intros u _; rewrite (proj2 (links_unused t v u N)); ring.
    + rewrite C by exact Nw. rewrite (I w j Lw J Bw). apply sum_ext. intros u _. destruct (Nat.eq_dec u v) as [->|Nu].
      * rewrite (proj1 (links_unused t v w N)). ring.
      * rewrite C by exact Nu. reflexivity.
Qed.
