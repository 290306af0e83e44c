(** C130: which slivers are seen in double precision. *)
From Coq Require Import List ZArith Reals Bool Arith Lia Lra Permutation.
From Flocq Require Import Core.
From Verif Require Import Model.Base Model.FastHJ Model.SDF Model.Simplex Model.Mesh Model.Formulas Model.Laplace64 Model.Dihedral Model.Dihedral64 Spec.Linear Spec.MeshTopo Spec.Dihedral Spec.Geom
  Proofs.ListAux Proofs.MeshAux Proofs.EdgeProofs Proofs.TopoProofs Proofs.EdgeProofs Proofs.DihedralProofs Proofs.Eval64 Proofs.Dihedral64Proofs Proofs.Dihedral64Bound Props.P09_slivers.
Import ListNotations.
Local Open Scope R_scope.

(** ---- the list has exactly the cells with a computed cosine in [-1,1] whose computed angle is outside the bounds ---- *)
(** the corner numbers in the order in which an edge (first two) and the opposite one are taken *)
Definition edge_orders : list (list nat) := [[2; 3; 0; 1]; [1; 3; 0; 2]; [1; 2; 0; 3]; [0; 3; 1; 2]; [0; 2; 1; 3]; [0; 1; 2; 3]]%nat.
Theorem C130_listed_exactly : forall acos64 p t lo hi,
  increasing (slivers64 acos64 p t lo hi) /\
  forall e, In e (slivers64 acos64 p t lo hi) <-> (e < length t)%nat /\
    let s := map (fun v => nth v p []) (nth e t []) in
    exists i j k l c, In [i; j; k; l] edge_orders /\ cphi64 (nth i s []) (nth j s []) (nth k s []) (nth l s []) = Some c /\ -1 <= c <= 1 /\
      (acos64 c < lo \/ hi < acos64 c).
Proof.
  intros f p t lo hi. split; [apply increasing_ss, unique_nat_sorted|]. intros e.
  assert (E6 : forall r, length (cell_angles64 f (pts_of p r)) = 6%nat) by reflexivity.
  assert (A : In e (slivers64 f p t lo hi) <-> (e < length t)%nat /\ exists a, In a (cell_angles64 f (pts_of p (nth e t []))) /\ out_of_bounds lo hi a = true).
  { unfold slivers64. rewrite unique_nat_in, in_map_iff. unfold calc_dihedral_angles64. split.
    - intros [j [<- H]]. apply (argwhere_in _ None) in H. destruct H as [L H]. rewrite (six_len _ t E6) in L. rewrite Nat.sub_0_r in H.
      assert (j = 6 * (j / 6) + j mod 6)%nat as EJ by (apply Nat.div_mod; lia). pose proof (Nat.mod_upper_bound j 6 ltac:(lia)) as M.
      assert (j / 6 < length t)%nat as Q by (apply Nat.div_lt_upper_bound; lia). split; [exact Q|].
      rewrite EJ in H. rewrite (six_nth _ t [] None E6) in H by assumption. eexists; split; [|exact H]. apply nth_In. rewrite E6. exact M.
    - intros [L [a [I H]]]. destruct (In_nth _ _ None I) as [i [Li E]]. rewrite E6 in Li. exists (6 * e + i)%nat. split.
      + rewrite Nat.mul_comm, Nat.div_add_l by lia. rewrite (Nat.div_small i 6) by exact Li. lia.
      + apply (argwhere_in _ None). rewrite (six_len _ t E6). split; [lia|]. rewrite Nat.sub_0_r, (six_nth _ t [] None E6) by assumption. rewrite E. exact H. }
  rewrite A. apply and_iff_compat_l. cbv zeta. change (map (fun v => nth v p []) (nth e t [])) with (pts_of p (nth e t [])). set (s := pts_of p (nth e t [])).
  assert (ONE : forall q0 q1 q2 q3, out_of_bounds lo hi (dihedral_angle64 f q0 q1 q2 q3) = true <-> exists c, cphi64 q0 q1 q2 q3 = Some c /\ -1 <= c <= 1 /\ (f c < lo \/ hi < f c)).
  { intros q0 q1 q2 q3. unfold dihedral_angle64. destruct (cphi64 q0 q1 q2 q3) as [c|].
    - destruct (Rltb c (-1) || Rltb 1 c) eqn:E.
      + cbn. split; [discriminate|]. intros (d & D & B & _). injection D as <-. apply orb_true_iff in E. rewrite !Rltb_true in E. lra.
      + apply orb_false_iff in E. destruct E as [E1 E2]. apply Rltb_false in E1, E2. cbn. rewrite orb_true_iff, !Rltb_true. split.
        * intros H. exists c. split; [reflexivity|]. split; [lra|exact H].
        * intros (d & D & _ & H). injection D as <-. exact H.
    - cbn. split; [discriminate|]. intros (d & D & _). discriminate. }
  unfold cell_angles64. cbn [seq map nth dh_edges fst snd Nat.sub]. split.
  - intros (a & I & H). cbn [In] in I. destruct I as [<-|[<-|[<-|[<-|[<-|[<-|[]]]]]]]; apply ONE in H; destruct H as (c & H);
      [exists 2%nat, 3%nat, 0%nat, 1%nat, c|exists 1%nat, 3%nat, 0%nat, 2%nat, c|exists 1%nat, 2%nat, 0%nat, 3%nat, c|exists 0%nat, 3%nat, 1%nat, 2%nat, c|exists 0%nat, 2%nat, 1%nat, 3%nat, c|exists 0%nat, 1%nat, 2%nat, 3%nat, c];
      (split; [unfold edge_orders; cbn; tauto|exact H]).
  - intros (i & j & k & l & c & I & H). assert (O : out_of_bounds lo hi (dihedral_angle64 f (nth i s []) (nth j s []) (nth k s []) (nth l s [])) = true) by (apply ONE; exists c; exact H).
    exists (dihedral_angle64 f (nth i s []) (nth j s []) (nth k s []) (nth l s [])). split; [|exact O].
    unfold edge_orders in I. cbn [In] in I. destruct I as [I|[I|[I|[I|[I|[I|[]]]]]]]; injection I as <- <- <- <-; cbn [In]; tauto.
Qed.
Print Assumptions C130_listed_exactly.

(** ---- the computed cosine of a tetrahedron whose faces are not thin ---- *)
(** every edge is at least 2^-100 long and the sine of every angle of every face is at least t *)
Definition thick (t : R) (s : list (list R)) : Prop := forall a b c d, Permutation [a; b; c; d] s ->
  / 2 ^ 100 <= edist b a /\ t * t * inner (vec a c) (vec a c) <= inner (perp (vec a b) (vec a c)) (perp (vec a b) (vec a c)).
Lemma perm_len3 (l s : list (list R)) : Permutation l s -> Forall (fun q => length q = 3%nat) s -> Forall (fun q => length q = 3%nat) l.
Proof. intros P F. apply Forall_forall. intros x I. apply (Permutation_in _ P) in I. rewrite Forall_forall in F. apply F, I. Qed.
Theorem C130_cosine_close : forall s a b c d phi t, Permutation [a; b; c; d] s -> Forall (fun q => length q = 3%nat) s -> / 2 ^ 20 <= t <= 1 -> thick t s ->
  dihedral a b c d phi -> exists k, cphi64 a b c d = Some k /\ Rabs (k - cos phi) <= / 2 ^ 41 / (t * t).
Proof.
  intros s a b c d phi t P F Ht TH D. apply (perm_len3 _ _ P) in F. inversion F as [|? ? La F1]; subst. inversion F1 as [|? ? Lb F2]; subst. inversion F2 as [|? ? Lc F3]; subst. inversion F3 as [|? ? Ld _]; subst.
  destruct (TH a b c d P) as [E1 H1]. destruct (TH a b d c) as [_ H2]; [etransitivity; [|exact P]; apply perm_skip, perm_skip, perm_swap|].
  destruct (TH a c b d) as [E2 _]; [etransitivity; [|exact P]; apply perm_skip, perm_swap|].
  destruct (TH a d b c) as [E3 _]; [etransitivity; [|exact P]; apply perm_skip; apply (Permutation_cons_append [b; c] d)|].
  apply cosine_close; assumption.
Qed.
Print Assumptions C130_cosine_close.
Lemma dihedral_exists a b c d t : length a = 3%nat -> length b = 3%nat -> length c = 3%nat -> length d = 3%nat -> 0 < t -> 0 < edist b a -> 0 < edist c a -> 0 < edist d a ->
  t * t * inner (vec a c) (vec a c) <= inner (perp (vec a b) (vec a c)) (perp (vec a b) (vec a c)) ->
  t * t * inner (vec a d) (vec a d) <= inner (perp (vec a b) (vec a d)) (perp (vec a b) (vec a d)) -> exists phi, dihedral a b c d phi.
Proof.
  intros La Lb Lc Ld Ht.
  destruct a as [|a1 [|a2 [|a3 [|]]]]; try discriminate. destruct b as [|b1 [|b2 [|b3 [|]]]]; try discriminate.
  destruct c as [|c1 [|c2 [|c3 [|]]]]; try discriminate. destruct d as [|d1 [|d2 [|d3 [|]]]]; try discriminate.
  unfold dihedral. rewrite !vec3, !edist_dot3, !inner3. intros Eb Ec Ed Hc Hd.
  assert (SP : forall q, 0 < sqrt q -> 0 < q). { intros q Q. destruct (Rle_or_lt q 0) as [N|]; [|assumption]. rewrite (sqrt_neg_0 q N) in Q. lra. }
  apply SP in Eb, Ec, Ed. assert (TT : 0 < t * t) by (apply Rmult_lt_0_compat; exact Ht). pose proof (Rmult_lt_0_compat _ _ TT Ec) as PC. pose proof (Rmult_lt_0_compat _ _ TT Ed) as PD.
  unfold angle_between. set (x := perp _ [c1 - a1; c2 - a2; c3 - a3]) in *. set (y := perp _ [d1 - a1; d2 - a2; d3 - a3]) in *.
  assert (PX : 0 < inner x x) by lra. assert (PY : 0 < inner y y) by lra.
  pose proof (sqrt_lt_R0 _ PX) as SX. pose proof (sqrt_lt_R0 _ PY) as SY. pose proof (Rmult_lt_0_compat _ _ SX SY) as SXY.
  assert (B : Rabs (inner x y) <= sqrt (inner x x) * sqrt (inner y y)).
  { rewrite <- sqrt_mult by lra. apply rnd_abs_le1; [|apply Rmult_le_pos; lra]. unfold x, y, perp, vtimes in *. cbn [map vplus] in *. rewrite !inner3 in *.
    match goal with |- dot3 ?a ?b ?c ?x ?y ?z * _ <= _ => pose proof (gram_nonneg a b c x y z) as G end. lra. }
  exists (acos (inner x y / (sqrt (inner x x) * sqrt (inner y y)))). split; [exact Eb|]. split; [exact PX|]. split; [exact PY|]. split; [apply acos_bound|].
  apply Rabs_le_inv in B. rewrite cos_acos; [field; lra|]. split.
  - apply (Rmult_le_reg_r (sqrt (inner x x) * sqrt (inner y y))); [exact SXY|]. replace (inner x y / (sqrt (inner x x) * sqrt (inner y y)) * (sqrt (inner x x) * sqrt (inner y y))) with (inner x y) by (field; lra). lra.
  - apply (Rmult_le_reg_r (sqrt (inner x x) * sqrt (inner y y))); [exact SXY|]. replace (inner x y / (sqrt (inner x x) * sqrt (inner y y)) * (sqrt (inner x x) * sqrt (inner y y))) with (inner x y) by (field; lra). lra.
Qed.
Lemma thick_dihedral s a b c d t : Permutation [a; b; c; d] s -> Forall (fun q => length q = 3%nat) s -> 0 < t -> thick t s -> exists phi, dihedral a b c d phi.
Proof.
  intros P F Ht TH. apply (perm_len3 _ _ P) in F. inversion F as [|? ? La F1]; subst. inversion F1 as [|? ? Lb F2]; subst. inversion F2 as [|? ? Lc F3]; subst. inversion F3 as [|? ? Ld _]; subst.
  destruct (TH a b c d P) as [E1 H1]. destruct (TH a b d c) as [_ H2]; [etransitivity; [|exact P]; apply perm_skip, perm_skip, perm_swap|].
  destruct (TH a c b d) as [E2 _]; [etransitivity; [|exact P]; apply perm_skip, perm_swap|].
  destruct (TH a d b c) as [E3 _]; [etransitivity; [|exact P]; apply perm_skip; apply (Permutation_cons_append [b; c] d)|].
  assert (0 < / 2 ^ 100) by (apply Rinv_0_lt_compat, pow_lt; lra). apply (dihedral_exists a b c d t); try assumption; lra.
Qed.
Lemma order_perm i j k l s : In [i; j; k; l] edge_orders -> length s = 4%nat -> Permutation [nth i s []; nth j s []; nth k s []; nth l s []] (s : list (list R)).
Proof.
  intros I L. destruct s as [|a [|b [|c [|d [|]]]]]; try discriminate.
  assert (PP : forall x1 x2 y1 y2 : list R, Permutation [x1;x2;y1;y2] [y1;y2;x1;x2]).
  { intros. change [x1;x2;y1;y2] with ([x1;x2] ++ [y1;y2]). change [y1;y2;x1;x2] with ([y1;y2] ++ [x1;x2]). apply Permutation_app_comm. }
  unfold edge_orders in I. cbn [In] in I. destruct I as [I|[I|[I|[I|[I|[I|[]]]]]]]; injection I as <- <- <- <-; cbn [nth].
  - apply PP.
  - etransitivity; [apply PP|]. apply perm_skip, perm_swap.
  - etransitivity; [apply (perm_skip b), perm_swap|]. etransitivity; [apply perm_swap|]. reflexivity.
  - apply perm_skip. apply (Permutation_cons_append [b;c] d).
  - apply perm_skip, perm_swap.
  - reflexivity.
Qed.
Lemma order_pick x y z w (s : list (list R)) : length s = 4%nat -> Permutation [x; y; z; w] s -> exists i j k l, In [i; j; k; l] edge_orders /\
  let q := [nth i s []; nth j s []; nth k s []; nth l s []] in q = [x; y; z; w] \/ q = [y; x; z; w] \/ q = [x; y; w; z] \/ q = [y; x; w; z].
Proof.
  intros L P. destruct s as [|a [|b [|c [|d [|]]]]]; try discriminate. apply perm4 in P.
  assert (K : forall i j k l, In [i; j; k; l] edge_orders -> (let q := [nth i [a;b;c;d] []; nth j [a;b;c;d] []; nth k [a;b;c;d] []; nth l [a;b;c;d] []] in q = [x; y; z; w] \/ q = [y; x; z; w] \/ q = [x; y; w; z] \/ q = [y; x; w; z]) ->
    exists i j k l, In [i; j; k; l] edge_orders /\ let q := [nth i [a;b;c;d] []; nth j [a;b;c;d] []; nth k [a;b;c;d] []; nth l [a;b;c;d] []] in q = [x; y; z; w] \/ q = [y; x; z; w] \/ q = [x; y; w; z] \/ q = [y; x; w; z]) by eauto 10.
  destruct P as [[-> P]|[[-> P]|[[-> P]|[-> P]]]]; apply perm3 in P; destruct P as [[-> P]|[[-> P]|[-> P]]]; apply perm2 in P; destruct P as [[-> ->]|[-> ->]];
  first [solve [apply (K 2 3 0 1)%nat; cbn; tauto]|solve [apply (K 1 3 0 2)%nat; cbn; tauto]|solve [apply (K 1 2 0 3)%nat; cbn; tauto]|solve [apply (K 0 3 1 2)%nat; cbn; tauto]|solve [apply (K 0 2 1 3)%nat; cbn; tauto]|solve [apply (K 0 1 2 3)%nat; cbn; tauto]].
Qed.
(** With a library acos whose error is below delta: a tetrahedron without thin faces is listed if one of its dihedral angles is outside the bounds
    by more than the errors (and not so near 0 or pi that the computed cosine could leave [-1,1]), and only if one of them is almost outside. *)
Theorem C130_bad_listed : forall acos64 delta p t lo hi e a b c d phi h, let s := map (fun v => nth v p []) (nth e t []) in let eps := / 2 ^ 41 / (h * h) in
  (forall x, -1 <= x <= 1 -> Rabs (acos64 x - acos x) < delta) -> (e < length t)%nat -> length s = 4%nat -> Forall (fun q => length q = 3%nat) s ->
  / 2 ^ 20 <= h <= 1 -> thick h s -> Permutation [a; b; c; d] s -> dihedral a b c d phi -> -1 + eps <= cos phi <= 1 - eps ->
  (0 <= lo - delta <= PI /\ cos (lo - delta) + eps <= cos phi) \/ (0 <= hi + delta <= PI /\ cos phi <= cos (hi + delta) - eps) ->
  In e (slivers64 acos64 p t lo hi).
Proof.
  intros f delta p t lo hi e a b c d phi h s eps HF He Ls F Hh TH P D CI H. apply C130_listed_exactly. split; [exact He|]. fold s. cbv zeta.
  destruct (order_pick _ _ _ _ s Ls P) as (i & j & k & l & I & Q). exists i, j, k, l.
  pose proof (order_perm i j k l s I Ls) as PI'. assert (F' := perm_len3 _ _ P F). inversion F' as [|? ? La F1]; subst. inversion F1 as [|? ? Lb F2]; subst. inversion F2 as [|? ? Lc F3]; subst. inversion F3 as [|? ? Ld _]; subst.
  assert (D' : dihedral (nth i s []) (nth j s []) (nth k s []) (nth l s []) phi).
  { cbv zeta in Q. destruct Q as [Q|[Q|[Q|Q]]]; injection Q as -> -> -> ->; [exact D|apply dihedral_swap_ends; assumption|apply dihedral_swap_faces; exact D|apply dihedral_swap_faces, dihedral_swap_ends; assumption]. }
  destruct (C130_cosine_close s _ _ _ _ phi h PI' F Hh TH D') as (x & E & B). fold eps in B. apply Rabs_le_inv in B. exists x. split; [exact I|]. split; [exact E|]. assert (X : -1 <= x <= 1) by lra. split; [exact X|].
  specialize (HF x X). apply Rabs_lt_inv in HF. pose proof (acos_bound x) as AB. pose proof (cos_acos x X) as CA. destruct H as [[L H]|[L H]].
  - left. assert (acos x <= lo - delta); [|lra]. apply cos_decr_0; try lra.
  - right. assert (hi + delta <= acos x); [|lra]. apply cos_decr_0; try lra.
Qed.
Print Assumptions C130_bad_listed.
Theorem C130_listed_bad : forall acos64 delta p t lo hi e h, let s := map (fun v => nth v p []) (nth e t []) in let eps := / 2 ^ 41 / (h * h) in
  (forall x, -1 <= x <= 1 -> Rabs (acos64 x - acos x) < delta) -> length s = 4%nat -> Forall (fun q => length q = 3%nat) s -> / 2 ^ 20 <= h <= 1 -> thick h s ->
  lo + delta <= PI -> 0 <= hi - delta -> In e (slivers64 acos64 p t lo hi) ->
  exists a b c d phi, Permutation [a; b; c; d] s /\ dihedral a b c d phi /\ (cos (lo + delta) - eps < cos phi \/ cos phi < cos (hi - delta) + eps).
Proof.
  intros f delta p t lo hi e h s eps HF Ls F Hh TH Hlo Hhi H. apply C130_listed_exactly in H. destruct H as [_ H]. fold s in H. cbv zeta in H. destruct H as (i & j & k & l & x & I & E & X & H).
  pose proof (order_perm i j k l s I Ls) as P. assert (h0 : 0 < h). { eapply Rlt_le_trans; [|apply Hh]. apply Rinv_0_lt_compat, pow_lt. lra. }
  destruct (thick_dihedral s _ _ _ _ h P F h0 TH) as [phi D]. exists (nth i s []), (nth j s []), (nth k s []), (nth l s []), phi. split; [exact P|]. split; [exact D|].
  destruct (C130_cosine_close s _ _ _ _ phi h P F Hh TH D) as (y & E' & B). fold eps in B. rewrite E in E'. injection E' as <-. apply Rabs_le_inv in B.
  specialize (HF x X). apply Rabs_lt_inv in HF. pose proof (acos_bound x) as AB. pose proof (cos_acos x X) as CA. destruct H as [H|H].
  - left. assert (cos (lo + delta) < cos (acos x)) by (apply cos_decreasing_1; lra). lra.
  - right. assert (cos (acos x) < cos (hi - delta)) by (apply cos_decreasing_1; lra). lra.
Qed.
Print Assumptions C130_listed_bad.

(** A flat tetrahedron with small whole coordinates and proper faces: exact arithmetic lists it for every positive lower bound, double precision
    for none, whatever the bounds and whatever the library's acos. *)
Definition kite : list (list R) := [[0; 3; 0]; [2; 2; 0]; [3; 1; 0]; [1; 1; 0]].
Definition lit (l : list (list Z)) : list (list ex) := map (map Cst) l.
Lemma outside_list f a b c d : forallb (fun s => match s with [q0; q1; q2; q3] => outside q0 q1 q2 q3 | _ => false end)
    [[c; d; a; b]; [b; d; a; c]; [b; c; a; d]; [a; d; b; c]; [a; c; b; d]; [a; b; c; d]] = true ->
  length a = 3%nat -> length b = 3%nat -> length c = 3%nat -> length d = 3%nat ->
  cell_angles64 f (map (map evR) [a; b; c; d]) = [None; None; None; None; None; None].
Proof.
  intros H La Lb Lc Ld. cbn [forallb] in H. rewrite !andb_true_iff in H. destruct H as (H1 & H2 & H3 & H4 & H5 & H6 & _).
  unfold cell_angles64. cbn [seq map nth dh_edges fst snd Nat.sub].
  assert (G : forall u v w x, length u = 3%nat -> length v = 3%nat -> length w = 3%nat -> length x = 3%nat -> outside u v w x = true ->
    dihedral_angle64 f (map evR u) (map evR v) (map evR w) (map evR x) = None).
  { intros u v w x Lu Lv Lw Lx. destruct u as [|? [|? [|? [|]]]]; try discriminate. destruct v as [|? [|? [|? [|]]]]; try discriminate.
    destruct w as [|? [|? [|? [|]]]]; try discriminate. destruct x as [|? [|? [|? [|]]]]; try discriminate. apply outside_nan. }
  rewrite !G by assumption. reflexivity.
Qed.
Lemma kite_angles f : cell_angles64 f kite = [None; None; None; None; None; None].
Proof. apply (outside_list f (map Cst [0; 3; 0]%Z) (map Cst [2; 2; 0]%Z) (map Cst [3; 1; 0]%Z) (map Cst [1; 1; 0]%Z)); [vm_compute; reflexivity|reflexivity..]. Qed.
Theorem C130_flat_unlisted_refuted : proper_faces kite /\ flat kite /\
  (forall lo hi, 0 < lo -> In 0%nat (slivers kite [[0; 1; 2; 3]%nat] lo hi)) /\
  (forall acos64 lo hi, slivers64 acos64 kite [[0; 1; 2; 3]%nat] lo hi = []).
Proof.
  assert (PF : proper_faces kite).
  { unfold kite. intros a b c d P. apply perm4 in P.
      repeat match goal with H : _ \/ _ |- _ => destruct H | H : _ /\ _ |- _ => destruct H | H : Permutation [_;_;_] _ |- _ => apply perm3 in H | H : Permutation [_;_] _ |- _ => apply perm2 in H end; subst;
      unfold vec, perp, vtimes; cbn [map vplus inner]; split; try lra;
      repeat match goal with |- context [?a / ?b] => let v := constr:(a / b) in replace v with (a * / b) by reflexivity end;
      match goal with |- 0 < ?x => assert (x <> 0 -> 0 < x \/ x < 0) by lra end; field_simplify; lra. }
  assert (FL : flat kite) by (exists [2; -4; 3; -1]; cbn; split; [reflexivity|split; [lra|split; [apply Exists_cons_hd; lra|]]]; repeat (f_equal; try ring)).
  split; [exact PF|]. split; [exact FL|]. split.
  - intros lo hi Hlo. apply C55_flat_listed; [|cbn; lia|exact Hlo|exact PF|exact FL].
    intros r [<- | []]. split; [reflexivity|]. intros v H. cbn in H. destruct H as [<- | [<- | [<- | [<- | []]]]]; reflexivity.
  - intros f lo hi. unfold slivers64, calc_dihedral_angles64. cbn [flat_map]. change (pts_of kite [0; 1; 2; 3]%nat) with kite. rewrite kite_angles. reflexivity.
Qed.
Print Assumptions C130_flat_unlisted_refuted.

(** Neither does a positive volume help: this tetrahedron is 2^-27 of its width thick, one of its dihedral angles is atan(2^-28), and no bound finds it. *)
Definition sail : list (list R) := [[0; 402653184; 1]; [268435456; 268435456; 0]; [402653184; 134217728; 0]; [134217728; 134217728; 0]].
Lemma sail_angles f : cell_angles64 f sail = [None; None; None; None; None; None].
Proof.
  apply (outside_list f (map Cst [0; 402653184; 1]%Z) (map Cst [268435456; 268435456; 0]%Z) (map Cst [402653184; 134217728; 0]%Z) (map Cst [134217728; 134217728; 0]%Z));
    [vm_compute; reflexivity|reflexivity..].
Qed.
Theorem C130_thin_unlisted_refuted : simp_vol sail > 0 /\
  (forall lo hi, atan (/ 2 ^ 28) < lo -> In 0%nat (slivers sail [[0; 1; 2; 3]%nat] lo hi)) /\
  (forall acos64 lo hi, slivers64 acos64 sail [[0; 1; 2; 3]%nat] lo hi = []).
Proof.
  split; [|split].
  - unfold simp_vol, sail. cbv zeta. lra.
  - intros lo hi Hlo. apply C55_slivers_exactly.
    + intros r [<- | []]. split; [reflexivity|]. intros v H. cbn in H. destruct H as [<- | [<- | [<- | [<- | []]]]]; reflexivity.
    + split; [cbn; lia|]. exists [134217728; 134217728; 0], [402653184; 134217728; 0], [268435456; 268435456; 0], [0; 402653184; 1], (atan (/ 2 ^ 28)).
      split; [|split; [|left; exact Hlo]].
      * cbn [map nth sail]. apply (Permutation_rev [[134217728; 134217728; 0]; [402653184; 134217728; 0]; [268435456; 268435456; 0]; [0; 402653184; 1]]).
      * replace (/ 2 ^ 28) with (/ 268435456) by (f_equal; ring). unfold dihedral, angle_between.
        set (u := perp _ _). set (w := perp _ _).
        assert (U : u = [0; 134217728; 0]) by (unfold u, perp, vec, vtimes; cbn [map vplus inner]; repeat (f_equal; try field)).
        assert (W : w = [0; 268435456; 1]) by (unfold w, perp, vec, vtimes; cbn [map vplus inner]; repeat (f_equal; try field)).
        rewrite U, W. split; [unfold vec, vtimes; cbn [map vplus inner]; lra|]. cbn [inner]. split; [lra|]. split; [lra|].
        pose proof (atan_bound (/ 268435456)) as [_ B]. pose proof (atan_increasing 0 (/ 268435456) ltac:(lra)) as A. rewrite atan_0 in A. split; [lra|].
        rewrite cos_atan. replace (0 * 0 + (134217728 * 134217728 + (0 * 0 + 0))) with (134217728 * 134217728) by ring. rewrite sqrt_square by lra.
        replace (0 * 0 + (268435456 * 268435456 + (1 * 1 + 0))) with ((268435456 * 268435456) * (1 + Rsqr (/ 268435456))) by (unfold Rsqr; field).
        rewrite sqrt_mult by (unfold Rsqr; lra). rewrite sqrt_square by lra. set (q := sqrt (1 + Rsqr (/ 268435456))).
        assert (0 < q) by (apply sqrt_lt_R0; unfold Rsqr; lra). field. lra.
  - intros f lo hi. unfold slivers64, calc_dihedral_angles64. cbn [flat_map]. change (pts_of sail [0; 1; 2; 3]%nat) with sail. rewrite sail_angles. reflexivity.
Qed.
Print Assumptions C130_thin_unlisted_refuted.
(** A tetrahedron with wide faces whose opposite edges nearly meet is listed, for any library acos with an error below 2^-10. *)
Definition tent : list (list R) := [[1; 0; 1/4]; [-1; 0; 1/4]; [0; 1; -1/4]; [0; -1; -1/4]].
Lemma tent_thick : thick (1/2) tent.
Proof.
  assert (E1 : forall x, 1 <= x -> / 2 ^ 100 <= sqrt x). { intros x H. apply Rle_trans with 1; [rewrite <- Rinv_1; apply Rinv_le_contravar; [lra|apply pow_R1_Rle; lra]|rewrite <- sqrt_1; apply sqrt_le_1_alt, H]. }
  unfold tent. intros a b c d P. apply perm4 in P.
  repeat match goal with H : _ \/ _ |- _ => destruct H | H : _ /\ _ |- _ => destruct H | H : Permutation [_;_;_] _ |- _ => apply perm3 in H | H : Permutation [_;_] _ |- _ => apply perm2 in H end; subst;
  (split; [unfold edist; apply E1; cbn; lra|]); unfold vec, perp, vtimes; cbn [map vplus inner]; lra.
Qed.
Example C130_tent_listed : forall acos64, (forall x, -1 <= x <= 1 -> Rabs (acos64 x - acos x) < / 1024) -> In 0%nat (slivers64 acos64 tent [[0; 1; 2; 3]%nat] 0 (PI / 2)).
Proof.
  intros f HF. assert (S3 : / 2 ^ 41 / (1/2 * (1/2)) <= / 1000). { replace (2 ^ 41) with 2199023255552 by ring. lra. }
  assert (S0 : 0 <= / 2 ^ 41 / (1/2 * (1/2))). { replace (2 ^ 41) with 2199023255552 by ring. lra. }
  assert (W : exists phi, dihedral [1; 0; 1/4] [-1; 0; 1/4] [0; 1; -1/4] [0; -1; -1/4] phi /\ cos phi = - (3/5)).
  { exists (acos (- (3/5))). split; [|apply cos_acos; lra]. unfold dihedral, angle_between. set (u := perp _ _). set (w := perp _ _).
    assert (U : u = [0; 1; -1/2]) by (unfold u, perp, vec, vtimes; cbn [map vplus inner]; repeat (f_equal; try field)).
    assert (Q : w = [0; -1; -1/2]) by (unfold w, perp, vec, vtimes; cbn [map vplus inner]; repeat (f_equal; try field)).
    rewrite U, Q. split; [unfold vec, vtimes; cbn [map vplus inner]; lra|]. cbn [inner]. split; [lra|]. split; [lra|]. split; [apply acos_bound|]. rewrite cos_acos by lra.
    replace (0 * 0 + (-1 * -1 + (-1 / 2 * (-1 / 2) + 0))) with (5/4) by field. replace (0 * 0 + (1 * 1 + (-1 / 2 * (-1 / 2) + 0))) with (5/4) by field. rewrite Rmult_assoc, sqrt_sq by lra. field. }
  destruct W as (phi & D & C). refine (C130_bad_listed f (/ 1024) tent [[0; 1; 2; 3]%nat] 0 (PI / 2) 0 _ _ _ _ phi (1/2) HF _ _ _ _ tent_thick (Permutation_refl _) D _ _); cbn [nth map length].
  - lia.
  - reflexivity.
  - repeat constructor.
  - split; [|lra]. replace (2 ^ 20) with 1048576 by ring. lra.
  - rewrite C. lra.
  - right. pose proof PI2_3_2. pose proof PI_4. split; [unfold PI2 in *; lra|]. rewrite C. assert (K : cos (PI / 2 + / 1024) = - sin (/ 1024)) by (rewrite cos_plus, cos_PI2, sin_PI2; ring). rewrite K.
    pose proof (sin_lt_x (/ 1024) ltac:(lra)). lra.
Qed.
Print Assumptions C130_tent_listed.
