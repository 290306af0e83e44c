(** C55: which tetrahedra are reported as slivers (angles in radians, exact arithmetic). *)
From Coq Require Import List ZArith Reals Bool Arith Lia Lra Permutation.
From Verif Require Import Model.Base Model.SDF Model.Mesh Model.Dihedral Spec.Linear Spec.MeshTopo Spec.Dihedral
  Proofs.ListAux Proofs.MeshAux Proofs.DihedralProofs.
Import ListNotations.
Local Open Scope R_scope.

Theorem C55_slivers_exactly : forall p t lo hi, (forall r, In r t -> length r = 4%nat /\ forall v, In v r -> length (nth v p []) = 3%nat) ->
  increasing (slivers p t lo hi) /\
  forall e, In e (slivers p t lo hi) <-> (e < length t)%nat /\ bad_angle lo hi (map (fun v => nth v p []) (nth e t [])).
Proof. exact slivers_spec. Qed.
Print Assumptions C55_slivers_exactly.
(** the angle computed for the edge q0 q1 is the angle between the faces; NaN exactly when it is undefined *)
Theorem C55_computed_angle : forall q0 q1 q2 q3, length q0 = 3%nat -> length q1 = 3%nat -> length q2 = 3%nat -> length q3 = 3%nat ->
  (forall phi, dihedral_angle q0 q1 q2 q3 = Some phi <-> dihedral q0 q1 q2 q3 phi) /\
  (dihedral_angle q0 q1 q2 q3 = None <-> ~ exists phi, dihedral q0 q1 q2 q3 phi).
Proof.
  intros q0 q1 q2 q3 L0 L1 L2 L3. split; [intros phi; apply dihedral_angle_spec; assumption|]. split.
  - intros E [phi H]. apply (dihedral_angle_spec _ _ _ _ _ L0 L1 L2 L3) in H. congruence.
  - intros N. destruct (dihedral_angle q0 q1 q2 q3) as [phi|] eqn:E; [|reflexivity]. exfalso. apply N. exists phi. apply dihedral_angle_spec; assumption.
Qed.
Print Assumptions C55_computed_angle.
(** a tetrahedron with all corners on one line is never reported, whatever the bounds *)
Theorem C55_collinear_never_listed : forall p t lo hi e, (forall r, In r t -> length r = 4%nat /\ forall v, In v r -> length (nth v p []) = 3%nat) ->
  on_a_line (map (fun v => nth v p []) (nth e t [])) -> ~ In e (slivers p t lo hi).
Proof.
  intros p t lo hi e HT HL H. apply (slivers_spec p t lo hi HT) in H. destruct H as [_ H]. exact (line_not_bad _ _ _ HL H).
Qed.
Print Assumptions C55_collinear_never_listed.
(** a flat tetrahedron whose faces are proper triangles is always reported when the lower bound is positive *)
Theorem C55_flat_listed : forall p t lo hi e, (forall r, In r t -> length r = 4%nat /\ forall v, In v r -> length (nth v p []) = 3%nat) ->
  (e < length t)%nat -> 0 < lo -> proper_faces (map (fun v => nth v p []) (nth e t [])) -> flat (map (fun v => nth v p []) (nth e t [])) -> In e (slivers p t lo hi).
Proof.
  intros p t lo hi e HT He Hlo PF FL. apply (slivers_spec p t lo hi HT). split; [exact He|]. unfold Formulas.pts_of.
  destruct (HT _ (nth_In t [] He)) as [L4 L3]. destruct (nth e t []) as [|v0 [|v1 [|v2 [|v3 [|? ?]]]]]; cbn in L4; try discriminate. clear L4.
  cbn [map] in *. destruct FL as [co [LC [TC [NZ CC]]]]. destruct co as [|sa [|sb [|sc [|sd [|? ?]]]]]; try discriminate LC.
  apply (flat_is_bad _ _ _ _ sa sb sc sd); try (apply L3; cbn [In]; tauto); try assumption.
  - unfold total in TC. cbn in TC. lra.
  - intros [-> [-> [-> ->]]]. inversion NZ as [? ? N|? ? N1]; subst; [apply N; reflexivity|]. inversion N1 as [? ? N|? ? N2]; subst; [apply N; reflexivity|].
    inversion N2 as [? ? N|? ? N3]; subst; [apply N; reflexivity|]. inversion N3 as [? ? N|? ? N4]; subst; [apply N; reflexivity|]. inversion N4.
Qed.
Print Assumptions C55_flat_listed.
(** a flat square is reported for any positive lower bound *)
Example C55_case : forall lo hi, 0 < lo -> slivers [[0;0;0];[1;0;0];[1;1;0];[0;1;0]] [[0;1;2;3]%nat] lo hi = [0%nat].
Proof.
  intros lo hi Hlo. assert (In 0%nat (slivers [[0;0;0];[1;0;0];[1;1;0];[0;1;0]] [[0;1;2;3]%nat] lo hi)) as I.
  { apply C55_flat_listed; [|cbn; lia|exact Hlo|..].
    - intros r [<- | []]. split; [reflexivity|]. intros v H. cbn in H. destruct H as [<- | [<- | [<- | [<- | []]]]]; reflexivity.
    - cbn [map nth]. intros a b c d P. apply perm4 in P.
      repeat match goal with H : _ \/ _ |- _ => destruct H | H : _ /\ _ |- _ => destruct H | H : Permutation [_;_;_] _ |- _ => apply perm3 in H | H : Permutation [_;_] _ |- _ => apply perm2 in H end; subst;
      unfold vec, perp, vtimes; cbn [map vplus inner]; split; try lra;
      repeat match goal with |- context [?a / ?b] => let v := constr:(a / b) in replace v with (a * / b) by reflexivity end;
      match goal with |- 0 < ?x => assert (x <> 0 -> 0 < x \/ x < 0) by lra end; field_simplify; lra.
    - exists [1; -1; 1; -1]. cbn. split; [reflexivity|]. split; [lra|]. split; [apply Exists_cons_hd; lra|]. repeat (f_equal; try ring). }
  assert (increasing (slivers [[0;0;0];[1;0;0];[1;1;0];[0;1;0]] [[0;1;2;3]%nat] lo hi) /\ forall e, In e (slivers [[0;0;0];[1;0;0];[1;1;0];[0;1;0]] [[0;1;2;3]%nat] lo hi) -> e = 0%nat) as [INC AL].
  { destruct (C55_slivers_exactly [[0;0;0];[1;0;0];[1;1;0];[0;1;0]] [[0;1;2;3]%nat] lo hi) as [A B].
    - intros r [<- | []]. split; [reflexivity|]. intros v H. cbn in H. destruct H as [<- | [<- | [<- | [<- | []]]]]; reflexivity.
    - split; [exact A|]. intros e He. apply B in He. cbn [length] in He. lia. }
  destruct (slivers [[0;0;0];[1;0;0];[1;1;0];[0;1;0]] [[0;1;2;3]%nat] lo hi) as [|x [|y l]]; [destruct I|..].
  - rewrite (AL x) by (left; reflexivity). reflexivity.
  - exfalso. destruct INC as [L _]. rewrite (AL x), (AL y) in L by (cbn [In]; tauto). lia.
Qed.
