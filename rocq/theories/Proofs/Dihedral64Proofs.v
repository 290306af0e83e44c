(** Evaluation of the dihedral cosines of concrete cells. *)
From Coq Require Import List ZArith Reals Bool Lia Lra.
From Verif Require Import Model.Base Model.FastHJ Model.SDF Model.Mesh Model.Formulas Model.Laplace64 Model.Dihedral Model.Dihedral64 Proofs.ListAux Proofs.Eval64.
Import ListNotations.
Local Open Scope R_scope.

Definition sumE (l : list ex) : ex := fold_left Add l (Cst 0).
Definition normE (u : list ex) : ex := Sqt (sumE (map (fun x => Mul x x) u)).
Definition crossE (a b : list ex) : list ex :=
  let A i := nth i a (Cst 0) in let B i := nth i b (Cst 0) in
  [Sub (Mul (A 1%nat) (B 2%nat)) (Mul (A 2%nat) (B 1%nat)); Sub (Mul (A 2%nat) (B 0%nat)) (Mul (A 0%nat) (B 2%nat)); Sub (Mul (A 0%nat) (B 1%nat)) (Mul (A 1%nat) (B 0%nat))].
Definition dotE (a b : list ex) : ex := sumE (map2 Mul a b).
Definition unitE (q q0 : list ex) : list ex := let v := map2 Sub q q0 in map (fun x => Div x (normE v)) v.
Definition denE (q0 q1 q2 q3 : list ex) : ex := Mul (normE (crossE (unitE q1 q0) (unitE q2 q0))) (normE (crossE (unitE q1 q0) (unitE q3 q0))).
Definition cphiE (q0 q1 q2 q3 : list ex) : ex :=
  let v1 := unitE q1 q0 in let v2 := unitE q2 q0 in let v3 := unitE q3 q0 in Div (Sub (dotE v2 v3) (Mul (dotE v1 v2) (dotE v1 v3))) (denE q0 q1 q2 q3).
Lemma cphi_twin x0 y0 z0 x1 y1 z1 x2 y2 z2 x3 y3 z3 :
  let q0 := [x0; y0; z0] in let q1 := [x1; y1; z1] in let q2 := [x2; y2; z2] in let q3 := [x3; y3; z3] in
  cphi64 (map evR q0) (map evR q1) (map evR q2) (map evR q3) =
  if Reqb (evR (normE (map2 Sub q1 q0))) 0 || Reqb (evR (normE (map2 Sub q2 q0))) 0 || Reqb (evR (normE (map2 Sub q3 q0))) 0 then None
  else if Reqb (evR (denE q0 q1 q2 q3)) 0 then None else Some (evR (cphiE q0 q1 q2 q3)).
Proof.
  cbv [cphi64 cphiE denE dotE unitE crossE normE sumE evR l2_norm64 cross_product64 dot_product64 sum64 map2 map combine fold_left nth fst snd]. reflexivity.
Qed.
Definition outside (q0 q1 q2 q3 : list ex) : bool :=
  match cmpF (cphiE q0 q1 q2 q3) (Cst 1), cmpF (cphiE q0 q1 q2 q3) (Cst (-1)) with Some Gt, _ | _, Some Lt => true | _, _ => false end.
Lemma outside_nan f x0 y0 z0 x1 y1 z1 x2 y2 z2 x3 y3 z3 :
  let q0 := [x0; y0; z0] in let q1 := [x1; y1; z1] in let q2 := [x2; y2; z2] in let q3 := [x3; y3; z3] in
  outside q0 q1 q2 q3 = true -> dihedral_angle64 f (map evR q0) (map evR q1) (map evR q2) (map evR q3) = None.
Proof.
  cbv zeta. intros H. unfold dihedral_angle64. rewrite cphi_twin. destruct (_ || _); [reflexivity|]. destruct (Reqb _ 0); [reflexivity|].
  set (c := cphiE _ _ _ _). assert (Q : 1 < evR c \/ evR c < -1).
  { unfold outside in H. fold c in H. clearbody c. destruct (cmpF c (Cst 1)) as [[| |]|] eqn:A; try (left; apply (gtF _ _ A));
    (destruct (cmpF c (Cst (-1))) as [[| |]|] eqn:B; try discriminate; right; apply (ltF _ _ B)). }
  destruct Q as [Q|Q]; apply Rltb_true in Q; rewrite Q; [rewrite orb_true_r|]; reflexivity.
Qed.
