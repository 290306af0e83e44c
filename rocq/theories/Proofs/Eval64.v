(** Evaluation of rounded expressions by Flocq's floating-point operations. *)
From Coq Require Import ZArith Reals Bool Lia Lra.
From Flocq Require Import Core BinarySingleNaN.
From Verif Require Import Model.Base Model.FastHJ.
Local Open Scope R_scope.

Definition b64 := binary_float 53 1024.
Local Instance p53 : Prec_gt_0 53 := eq_refl.
Local Instance e1024 : Prec_lt_emax 53 1024 := eq_refl.
Inductive ex : Type := Cst (z : Z) | Add (a b : ex) | Sub (a b : ex) | Mul (a b : ex) | Div (a b : ex) | Sqt (a : ex).
Fixpoint evR (e : ex) : R :=
  match e with
  | Cst z => IZR z
  | Add a b => rnd64 (evR a + evR b) | Sub a b => rnd64 (evR a - evR b) | Mul a b => rnd64 (evR a * evR b) | Div a b => rnd64 (evR a / evR b)
  | Sqt a => rnd64 (sqrt (evR a))
  end.
Definition fin (f : b64) : option b64 := if is_finite f then Some f else None.
Definition is_zero (f : b64) : bool := match f with B754_zero _ => true | _ => false end.
Fixpoint evF (e : ex) : option b64 :=
  let bin op a b := match evF a, evF b with Some x, Some y => fin (op x y) | _, _ => None end in
  match e with
  | Cst z => if (Z.abs z <? 2 ^ 53)%Z then fin (binary_normalize 53 1024 _ _ mode_NE z 0 false) else None
  | Add a b => bin (Bplus mode_NE) a b
  | Sub a b => bin (Bminus mode_NE) a b
  | Mul a b => bin (Bmult mode_NE) a b
  | Div a b => match evF a, evF b with Some x, Some y => if is_zero y then None else fin (Bdiv mode_NE x y) | _, _ => None end
  | Sqt a => match evF a with Some x => fin (Bsqrt mode_NE x) | None => None end
  end.
Lemma rnd_is x : round radix2 (SpecFloat.fexp 53 1024) (round_mode mode_NE) x = rnd64 x.
Proof. reflexivity. Qed.
Lemma overflow_not_finite (s : bool) (f : b64) : B2SF f = binary_overflow 53 1024 mode_NE s -> is_finite f = true -> False.
Proof. intros H F. rewrite <- is_finite_SF_B2SF in F. rewrite H in F. discriminate. Qed.
Lemma not_zero (f : b64) : is_finite f = true -> is_zero f = false -> B2R f <> 0.
Proof.
  destruct f as [s|s| |s m e H]; try discriminate. intros _ _. cbn. unfold F2R. cbn. apply Rmult_integral_contrapositive_currified; [|apply Rgt_not_eq, bpow_gt_0].
  apply IZR_neq. destruct s; discriminate.
Qed.
Lemma evF_ok e : forall f, evF e = Some f -> is_finite f = true /\ B2R f = evR e.
Proof.
  assert (FI : forall f g : b64, fin f = Some g -> f = g /\ is_finite f = true) by (unfold fin; intros f g H; destruct (is_finite f) eqn:E; [injection H as <-; tauto|discriminate]).
  induction e as [z|a IHa b IHb|a IHa b IHb|a IHa b IHb|a IHa b IHb|a IHa]; intros f H; cbn [evF evR] in *.
  - destruct (Z.abs z <? 2 ^ 53)%Z eqn:E; [|discriminate]. apply Z.ltb_lt in E. apply FI in H. destruct H as [<- F]. split; [exact F|].
    pose proof (binary_normalize_correct 53 1024 _ _ mode_NE z 0 false) as C. cbv zeta in C. rewrite rnd_is in C.
    assert (Z1 : F2R (Float radix2 z 0) = IZR z) by (unfold F2R; cbn [Fnum Fexp]; change (bpow radix2 0) with 1; ring). rewrite Z1 in C.
    destruct (Rlt_bool _ _); [|destruct (overflow_not_finite _ _ C F)]. destruct C as [-> _]. unfold rnd64. apply round_generic; [typeclasses eauto|].
    apply generic_format_FLT. apply (FLT_spec _ _ _ _ (Float radix2 z 0)); cbn; [symmetry; exact Z1|exact E|lia].
  - destruct (evF a) as [x|]; [|discriminate]. destruct (evF b) as [y|]; [|discriminate]. destruct (IHa x eq_refl) as [Fx Ex]. destruct (IHb y eq_refl) as [Fy Ey].
    apply FI in H. destruct H as [<- F]. split; [exact F|]. pose proof (Bplus_correct 53 1024 _ _ mode_NE x y Fx Fy) as C. rewrite rnd_is in C.
    destruct (Rlt_bool _ _); [|destruct (overflow_not_finite _ _ (proj1 C) F)]. rewrite (proj1 C), Ex, Ey. reflexivity.
  - destruct (evF a) as [x|]; [|discriminate]. destruct (evF b) as [y|]; [|discriminate]. destruct (IHa x eq_refl) as [Fx Ex]. destruct (IHb y eq_refl) as [Fy Ey].
    apply FI in H. destruct H as [<- F]. split; [exact F|]. pose proof (Bminus_correct 53 1024 _ _ mode_NE x y Fx Fy) as C. rewrite rnd_is in C.
    destruct (Rlt_bool _ _); [|destruct (overflow_not_finite _ _ (proj1 C) F)]. rewrite (proj1 C), Ex, Ey. reflexivity.
  - destruct (evF a) as [x|]; [|discriminate]. destruct (evF b) as [y|]; [|discriminate]. destruct (IHa x eq_refl) as [Fx Ex]. destruct (IHb y eq_refl) as [Fy Ey].
    apply FI in H. destruct H as [<- F]. split; [exact F|]. pose proof (Bmult_correct 53 1024 _ _ mode_NE x y) as C. rewrite rnd_is in C.
    destruct (Rlt_bool _ _); [|destruct (overflow_not_finite _ _ C F)]. rewrite (proj1 C), Ex, Ey. reflexivity.
  - destruct (evF a) as [x|]; [|discriminate]. destruct (evF b) as [y|]; [|discriminate]. destruct (IHa x eq_refl) as [Fx Ex]. destruct (IHb y eq_refl) as [Fy Ey].
    destruct (is_zero y) eqn:Zy; [discriminate|]. apply FI in H. destruct H as [<- F]. split; [exact F|]. pose proof (Bdiv_correct 53 1024 _ _ mode_NE x y (not_zero y Fy Zy)) as C. rewrite rnd_is in C.
    destruct (Rlt_bool _ _); [|destruct (overflow_not_finite _ _ C F)]. rewrite (proj1 C), Ex, Ey. reflexivity.
  - destruct (evF a) as [x|]; [|discriminate]. destruct (IHa x eq_refl) as [Fx Ex]. apply FI in H. destruct H as [<- F]. split; [exact F|].
    pose proof (Bsqrt_correct 53 1024 _ _ mode_NE x) as C. rewrite rnd_is in C. rewrite (proj1 C), Ex. reflexivity.
Qed.
(** comparisons of evaluated expressions *)
Definition cmpF (a b : ex) : option comparison := match evF a, evF b with Some x, Some y => Bcompare x y | _, _ => None end.
Lemma cmpF_ok a b c : cmpF a b = Some c -> Rcompare (evR a) (evR b) = c.
Proof.
  unfold cmpF. destruct (evF a) as [x|] eqn:A; [|discriminate]. destruct (evF b) as [y|] eqn:B; [|discriminate]. destruct (evF_ok a x A) as [Fx <-]. destruct (evF_ok b y B) as [Fy <-].
  rewrite Bcompare_correct by assumption. intros H. injection H as <-. reflexivity.
Qed.
Lemma gtF a b : cmpF a b = Some Gt -> evR b < evR a.
Proof. intros H. apply cmpF_ok in H. apply Rcompare_Gt_inv, H. Qed.
Lemma ltF a b : cmpF a b = Some Lt -> evR a < evR b.
Proof. intros H. apply cmpF_ok in H. apply Rcompare_Lt_inv, H. Qed.
