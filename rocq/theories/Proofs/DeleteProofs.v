(** delete_boundary_entities *)
From Coq Require Import List ZArith Reals Bool Arith Lia Lra Permutation Sorted.
From Verif Require Import Model.Base Model.SDF Model.Simplex Model.Mesh Spec.MeshTopo Proofs.ListAux Proofs.MeshAux Proofs.VtoeProofs
  Proofs.EdgeProofs Proofs.TopoProofs Proofs.FixMeshProofs Proofs.SimplexProofs.
Import ListNotations.

Definition poor_entity (p : list (list R)) (t : list row) (mq : R) (e : nat) : Prop :=
  exists q, simp_qual (map (fun v => nth v p []) (nth e t [])) = Some q /\ (q < mq)%R.

Lemma poor_spec p t mq e : poor mq (entity_qual p t e) = true <-> poor_entity p t mq e.
Proof.
  unfold poor, poor_entity, entity_qual. destruct (simp_qual _) as [q|].
  - rewrite Rltb_true. split; [intros H; exists q; tauto|intros [q' [E H]]; inversion E; subst; exact H].
  - split; [discriminate|intros [q' [E _]]; discriminate].
Qed.
Lemma bele_touches uniq dim t ve n : dim = 2 \/ dim = 3 -> uniq_ok uniq -> (forall r, In r t -> simplex (S dim) r) ->
  Permutation ve (ve_pairs t) -> ascending (map fst ve) -> (forall v, v < n <-> exists r, In r t /\ In v r) -> 0 < n ->
  forall e, e < length t -> (In e (get_boundary_entities uniq dim t ve) <-> touches dim t e).
Proof.
  intros D HU HT HP HA HI Hn e He. rewrite (proj2 (boundary_entities_spec uniq dim t ve n D HU HT HP HA HI Hn)). unfold touches. split.
  - intros [_ [v [Iv Bv]]]. apply (proj2 (boundary_vertices_spec uniq dim t D HU HT)) in Bv. destruct Bv as [f H]. exists v, f. tauto.
  - intros [v [f H]]. split; [exact He|]. exists v. split; [tauto|]. apply (proj2 (boundary_vertices_spec uniq dim t D HU HT)). exists f. tauto.
Qed.
Lemma delete_spec uniqK uniqR k dim mq p t ve n p' t' : uniq_ok uniqK -> uniq_ok uniqR -> dim = 2 \/ dim = 3 ->
  (forall r, In r t -> simplex (S dim) r) -> Permutation ve (ve_pairs t) -> ascending (map fst ve) ->
  (forall v, v < n <-> exists r, In r t /\ In v r) -> 0 < n ->
  delete_boundary_entities uniqK uniqR k dim mq p t ve = Ok (p', t') ->
  exists kept, clean k p kept p' t' /\ (forall v, v < length p' -> exists r, In r t' /\ In v r) /\
   (forall r, In r kept <-> exists e, e < length t /\ r = nth e t [] /\ ~ (touches dim t e /\ poor_entity p t mq e)).
Proof.
  intros HK HR D HT HP HA HI Hn H. unfold delete_boundary_entities in H.
  set (kept := kept_rows (entity_qual p t) mq (get_boundary_entities uniqR dim t ve) t) in *.
  destruct (fix_mesh uniqK uniqR k p kept true true) as [[[p1 t1] jx]|] eqn:E; [|discriminate]. inversion H; subst.
  destruct (fix_mesh_clean uniqK uniqR k HK HR p kept (fix_mesh_valid _ _ _ _ _ _ _ _ E) true true p' t' jx E) as [C U].
  exists kept. split; [exact C|]. split; [apply U; reflexivity|]. intros r. unfold kept. rewrite kept_rows_in. split; intros [e [L [-> N]]]; exists e; (split; [exact L|split; [reflexivity|]]).
  - intros [A B]. apply N. split; [apply (bele_touches uniqR dim t ve n); assumption|apply poor_spec, B].
  - intros [A B]. apply N. split; [apply (bele_touches uniqR dim t ve n) in A; assumption|apply poor_spec, B].
Qed.

(** ---- a squashed triangulation whose inner triangle survives ---- *)
Local Open Scope R_scope.
Definition wp : list (list R) := [[-9000;-3]; [10000;-2]; [500;10]; [-1000;1]; [2000;2]; [100;4]].
Definition wt : list row := [[0;1;4];[0;4;3];[1;2;5];[1;5;4];[2;0;3];[2;3;5];[3;4;5]]%nat.
Lemma wt_simplex r : In r wt -> simplex 3 r.
Proof.
  intros H. cbn in H.
  repeat (destruct H as [<- | H]; [split; [reflexivity|repeat (apply NoDup_cons; [cbn; lia|]); apply NoDup_nil]|]). destruct H.
Qed.
Lemma wt_used v : (v < 6 <-> exists r, In r wt /\ In v r)%nat.
Proof.
  split.
  - intros H. do 6 (destruct v as [|v]; [first [exists [0;1;4]%nat; cbn; tauto|exists [1;2;5]%nat; cbn; tauto|exists [3;4;5]%nat; cbn; tauto]|]). lia.
  - intros [r [Hr Hv]]. cbn in Hr. repeat (destruct Hr as [<- | Hr]; [cbn in Hv; lia|]). destruct Hr.
Qed.
Lemma wt_boundary f : (increasing f -> length f = 2 -> entities_on f wt = 1 -> f = [0;1] \/ f = [1;2] \/ f = [0;2])%nat.
Proof.
  intros HI HL HE. destruct (row2 f HL) as [a [b ->]]. destruct HI as [L _].
  destruct (on_some _ _ HE) as [r [Hr HF]].
  assert (a < 6 /\ b < 6)%nat as [La Lb] by (split; apply wt_used; exists r; (split; [exact Hr|apply HF; cbn; tauto])).
  clear HF Hr. revert HE L. do 6 (destruct a as [|a]; [do 6 (destruct b as [|b]; [intros HE L; try (exfalso; lia); try (vm_compute in HE; discriminate); tauto|]); lia|]). lia.
Qed.
Ltac absR := match goal with |- context [Rabs ?x] => (rewrite (Rabs_right x) by lra) || (rewrite (Rabs_left x) by lra) end.
Ltac poor_tac := apply qual_upper; repeat absR; cbn; lra.
Lemma wt_poor e : (e < 7)%nat -> poor_entity wp wt (1/10) e.
Proof.
  intros H. unfold poor_entity. do 7 (destruct e as [|e]; [cbn [nth map wp wt]; poor_tac|]). lia.
Qed.
Lemma wt_touches e : (e < 6)%nat -> touches 2 wt e.
Proof.
  intros H.
  assert (exists v, (v < 3)%nat /\ In v (nth e wt [])) as [v [Lv Iv]].
  { do 6 (destruct e as [|e]; [first [exists 0%nat; cbn; split; [lia|tauto]|exists 1%nat; cbn; split; [lia|tauto]|exists 2%nat; cbn; split; [lia|tauto]]|]). lia. }
  assert (exists f, In v f /\ increasing f /\ length f = 2%nat /\ entities_on f wt = 1%nat) as [f HF].
  { destruct v as [|[|[|v]]]; [exists [0;1]%nat|exists [0;1]%nat|exists [1;2]%nat|lia]; (split; [cbn; tauto|split; [cbn; lia|split; reflexivity]]). }
  exists v, f. tauto.
Qed.
Lemma wt_inner : ~ touches 2 wt 6.
Proof.
  intros [v [f [Iv [If [A [B C]]]]]]. destruct (wt_boundary f A B C) as [-> | [-> | ->]]; cbn in Iv, If; lia.
Qed.
Definition inj_on (k : list R -> key) (p : list (list R)) : Prop := forall q q', In q p -> In q' p -> k q = k q' -> q = q'.
Lemma map_inj_perm {A B} (g : A -> B) (l m : list A) : (forall x y, In x l -> In y m -> g x = g y -> x = y) -> (forall x y, In x m -> In y m -> g x = g y -> x = y) -> NoDup (map g l) ->
  Permutation (map g l) (map g m) -> Permutation l m.
Proof.
  intros HI HI2 ND HP. apply NoDup_Permutation.
  - apply NoDup_map_inv in ND. exact ND.
  - apply (NoDup_map_inv g). eapply Permutation_NoDup; eassumption.
  - intros x. split; intros Hx.
    + assert (In (g x) (map g m)) as I by (apply (Permutation_in _ HP), in_map, Hx). apply in_map_iff in I. destruct I as [y [E Iy]].
      rewrite (HI x y Hx Iy); [exact Iy|congruence].
    + assert (In (g x) (map g l)) as I by (apply (Permutation_in _ (Permutation_sym HP)), in_map, Hx). apply in_map_iff in I. destruct I as [y [E Iy]].
      rewrite <- (HI y x Iy Hx); [exact Iy|congruence].
Qed.
Lemma delete_leaves_poor uniqK uniqR k ve p' t' : uniq_ok uniqK -> uniq_ok uniqR -> inj_on k wp ->
  Permutation ve (ve_pairs wt) -> ascending (map fst ve) ->
  delete_boundary_entities uniqK uniqR k 2 (1/10) wp wt ve = Ok (p', t') ->
  exists e, (e < length t')%nat /\ touches 2 t' e /\ poor_entity p' t' (1/10) e.
Proof.
  intros HK HR INJ HP HA H.
  destruct (delete_spec uniqK uniqR k 2 (1/10) wp wt ve 6 p' t' HK HR (or_introl eq_refl) wt_simplex HP HA wt_used ltac:(lia) H) as [kept [C [U HKP]]].
  destruct C as [V F N FW BW D].
  assert (forall r, In r kept <-> r = [3;4;5]%nat) as KI.
  { intros r. rewrite HKP. split.
    - intros [e [L [-> NP]]]. assert (e = 6)%nat as ->; [|reflexivity]. destruct (Nat.lt_ge_cases e 6) as [K|K]; [|cbn in L; lia].
      exfalso. apply NP. split; [apply wt_touches, K|apply wt_poor; lia].
    - intros ->. exists 6%nat. split; [cbn; lia|]. split; [reflexivity|]. intros [K _]. exact (wt_inner K). }
  destruct (FW [3;4;5]%nat (proj2 (KI _) eq_refl)) as [r' [Ir P]].
  assert (forall r, In r t' -> Permutation (row_keys k p' r) (row_keys k wp [3;4;5]%nat)) as PA.
  { intros r Hr. destruct (BW r Hr) as [r0 [I0 P0]]. apply KI in I0. subst. exact P0. }
  assert (NoDup (row_keys k wp [3;4;5]%nat)) as NK.
  { unfold row_keys. cbn [map nth wp].
    assert (forall q q', In q wp -> In q' wp -> q <> q' -> k q <> k q') as NE by (intros q q' A B X K; apply X, INJ; assumption).
    assert (forall a b c d : R, a <> c -> [a;b] <> [c;d]) as LN by (intros a b c d X K; inversion K; contradiction).
    repeat (apply NoDup_cons; [|]); try apply NoDup_nil; cbn [In]; intros K; repeat (destruct K as [K|K]; [revert K; apply NE; [cbn; tauto|cbn; tauto|apply LN; lra]|]); destruct K. }
  assert (NoDup r') as NR.
  { apply (NoDup_map_inv (fun v => k (nth v p' []))). eapply Permutation_NoDup; [symmetry; exact P|exact NK]. }
  assert (length r' = 3)%nat as LR. { apply Permutation_length in P. unfold row_keys in P. rewrite !map_length in P. exact P. }
  assert (forall r, In r t' -> Permutation r' r) as SAME.
  { intros r Hr. assert (Permutation (row_keys k p' r') (row_keys k p' r)) as PR by (rewrite (PA r Hr); exact P).
    apply (map_inj_perm (fun v => k (nth v p' []))).
    - intros x y Hx Hy E. apply (proj1 (NoDup_nth (map k p') (k [])) N); [rewrite map_length; apply (V r' x Ir Hx)|rewrite map_length; apply (V r y Hr Hy)|rewrite !map_nth; exact E].
    - intros x y Hx Hy E. apply (proj1 (NoDup_nth (map k p') (k [])) N); [rewrite map_length; apply (V r x Hr Hx)|rewrite map_length; apply (V r y Hr Hy)|rewrite !map_nth; exact E].
    - eapply Permutation_NoDup; [symmetry; exact P|exact NK].
    - exact PR. }
  assert (t' = [r']) as ->.
  { destruct t' as [|r1 [|r2 t']]; [destruct Ir| |].
    - destruct Ir as [-> | []]. reflexivity.
    - exfalso. apply (D 0 1)%nat; cbn; try lia. rewrite <- (SAME r1), <- (SAME r2); [reflexivity|cbn; tauto|cbn; tauto]. }
  exists 0%nat. split; [cbn; lia|]. destruct (row3 r' LR) as [a [b [c ->]]]. split.
  - exists a, (sort_nat [a;b]). split; [cbn; tauto|]. split; [apply sort_nat_in; cbn; tauto|].
    assert (NoDup [a;b]) as NAB by (inversion NR as [|? ? X1 X2]; subst; constructor; [cbn in *; tauto|constructor; [intros []|constructor]]).
    split; [apply increasing_ss, sort_nodup_lt, NAB|]. split; [apply sort_nat_length|].
    unfold entities_on. cbn [filter]. rewrite (proj2 (forallb_has_incl (sort_nat [a;b]) [a;b;c])); [reflexivity|].
    intros x Hx. apply (proj1 (sort_nat_in _ _)) in Hx. cbn in *. tauto.
  - unfold poor_entity. cbn [nth].
    assert (Permutation (map (fun v => nth v p' []) [a;b;c]) (map (fun v => nth v wp []) [3;4;5]%nat)) as PP.
    { apply (map_inj_perm k).
      - intros x y Hx Hy E. apply INJ; [| |exact E].
        + apply in_map_iff in Hx. destruct Hx as [v [<- Hv]]. apply F, nth_In. apply (V [a;b;c]); [left; reflexivity|exact Hv].
        + apply in_map_iff in Hy. destruct Hy as [v [<- Hv]]. apply nth_In. cbn in Hv |- *. lia.
      - intros x y Hx Hy E. apply INJ; [| |exact E].
        + apply in_map_iff in Hx. destruct Hx as [v [<- Hv]]. apply nth_In. cbn in Hv |- *. lia.
        + apply in_map_iff in Hy. destruct Hy as [v [<- Hv]]. apply nth_In. cbn in Hv |- *. lia.
      - rewrite map_map. eapply Permutation_NoDup; [symmetry; exact P|exact NK].
      - rewrite !map_map. exact P. }
    cbn [map nth wp] in PP |- *. rewrite (qual_perm [-1000;1] [2000;2] [100;4] _ eq_refl eq_refl PP). poor_tac.
Qed.
