From Coq Require Import List ZArith Reals Bool Arith Lia Permutation.
From Verif Require Import Model.Base Model.Triang Proofs.MeshAux.
Import ListNotations.
Local Open Scope nat_scope.

Lemma renumber_length l : forall i, length (renumber i l) = length l.
Proof. induction l as [|v l IH]; intros i; cbn; [reflexivity|]. rewrite IH. reflexivity. Qed.
Lemma renumber_handles l : forall i, map handle (renumber i l) = map handle l.
Proof. induction l as [|v l IH]; intros i; cbn; [reflexivity|]. rewrite IH. reflexivity. Qed.
Lemma renumber_pos l : forall i, map pos (renumber i l) = map pos l.
Proof. induction l as [|v l IH]; intros i; cbn; [reflexivity|]. rewrite IH. reflexivity. Qed.
Lemma renumber_nth l d : forall i k, k < length l -> nth k (renumber i l) d = V (handle (nth k l d)) (pos (nth k l d)) (i + k).
Proof. induction l as [|v l IH]; intros i k L; [cbn in L; lia|]. cbn [renumber]. destruct k as [|k]; cbn [nth]; [rewrite Nat.add_0_r; reflexivity|]. cbn [length] in L. rewrite IH by lia. f_equal. lia. Qed.
Lemma wf_renumber s : wf s -> wf (snd (get_finite_vertices s)).
Proof. intros (A & B & C). unfold get_finite_vertices, wf. cbn [snd verts cells]. rewrite renumber_handles, renumber_pos. auto. Qed.
Lemma removes_wf hs s s' : removes hs s s' -> wf s -> wf s'.
Proof. induction 1 as [|h hs s s' s'' H _ IH]; [auto|]. intros _. apply IH, H. Qed.
Lemma moves_wf hs s s' : moves hs s s' -> wf s -> wf s'.
Proof. induction 1 as [|h q hs s s' s'' H _ IH]; [auto|]. intros _. apply IH, H. Qed.
Lemma history_wf s : history s -> wf s.
Proof.
  induction 1 as [|s p s' _ IH H|s ix s' _ IH [_ H]|s ix q s' _ IH [_ [_ H]]|s _ IH].
  - unfold wf, empty. cbn. split; [constructor|]. split; [constructor|]. intros c h [].
  - apply H.
  - exact (removes_wf _ _ _ H IH).
  - exact (moves_wf _ _ _ H IH).
  - apply wf_renumber, IH.
Qed.
(** the vertex with a given handle *)
Lemma find_handle l v : NoDup (map handle l) -> In v l -> find (fun w => handle w =? handle v) l = Some v.
Proof.
  induction l as [|w l IH]; intros ND I; [destruct I|]. cbn [map] in ND. inversion ND as [|? ? NI ND']; subst. cbn [find]. destruct (Nat.eqb_spec (handle w) (handle v)) as [E|E].
  - destruct I as [-> |I]; [reflexivity|]. exfalso. apply NI. rewrite E. apply in_map, I.
  - destruct I as [-> |I]; [congruence|]. apply IH; assumption.
Qed.
Lemma info_at s v : wf s -> In v (verts s) -> info_of s (handle v) = info v.
Proof. intros (A & _ & _) I. unfold info_of. rewrite find_handle by assumption. reflexivity. Qed.
Definition vpos (s : tri) (h : nat) : list R := match find (fun v => handle v =? h) (verts s) with Some v => pos v | None => [] end.
Lemma vpos_at s v : wf s -> In v (verts s) -> vpos s (handle v) = pos v.
Proof. intros (A & _ & _) I. unfold vpos. rewrite find_handle by assumption. reflexivity. Qed.

Lemma topology s : wf s -> let '(p, t, s') := get_topology s in
  p = map pos (verts s) /\ length t = length (cells s) /\
  forall k, k < length (cells s) -> let c := nth k (cells s) [] in let r := nth k t [] in
    length r = length c /\ Forall (fun v => v < length p) r /\ map (fun v => nth v p []) r = map (vpos s) c.
Proof.
  intros W. pose proof (wf_renumber s W) as W'. unfold get_topology. cbn [get_finite_vertices] in *. cbn [snd] in W'. set (s' := {| verts := renumber 0 (verts s); cells := cells s |}) in *.
  split; [reflexivity|]. unfold get_finite_cells. change (cells s') with (cells s). split; [apply map_length|]. intros k Hk. set (c := nth k (cells s) []).
  rewrite (nth_map' (map (info_of s')) (cells s) k [] []) by exact Hk. fold c. split; [apply map_length|].
  assert (forall h, In h c -> info_of s' h < length (map pos (verts s)) /\ nth (info_of s' h) (map pos (verts s)) [] = vpos s h) as G.
  { intros h Hh. assert (In h (map handle (verts s))) as Ih by (apply W with (c := c); [apply nth_In; exact Hk|exact Hh]).
    apply in_map_iff in Ih. destruct Ih as (v & <- & Iv). destruct (In_nth _ _ (V 0 [] 0) Iv) as (j & Lj & Ej).
    pose proof (renumber_nth (verts s) (V 0 [] 0) 0 j Lj) as RN. rewrite Ej in RN. cbn [Nat.add] in RN.
    assert (In (V (handle v) (pos v) j) (verts s')) as Iv' by (rewrite <- RN; apply nth_In; change (j < length (renumber 0 (verts s))); rewrite renumber_length; exact Lj).
    pose proof (info_at s' _ W' Iv') as E. cbn [handle info] in E. rewrite E, map_length. split; [exact Lj|]. rewrite (nth_map' pos _ j [] (V 0 [] 0)) by exact Lj. rewrite Ej. symmetry. apply vpos_at; assumption. }
  split.
  - apply Forall_forall. intros x Hx. apply in_map_iff in Hx. destruct Hx as (h & <- & Hh). apply G, Hh.
  - rewrite map_map. apply map_ext_in. intros h Hh. apply G, Hh.
Qed.

(** ---- removal ---- *)
Lemma removes_perm hs s s' : removes hs s s' -> exists vs, map handle vs = hs /\ Permutation (verts s) (vs ++ verts s').
Proof.
  induction 1 as [|h hs s s' s'' (_ & v & E & P) _ (vs & Evs & P')]; [exists []; split; [reflexivity|apply Permutation_refl]|].
  exists (v :: vs). split; [cbn; congruence|]. cbn [app]. rewrite P. apply perm_skip, P'.
Qed.
Lemma filter_perm {A} (f : A -> bool) l l' : Permutation l l' -> Permutation (filter f l) (filter f l').
Proof.
  induction 1 as [|x l l' _ IH|x y l|l l' l'' _ IH1 _ IH2]; [constructor| | |rewrite IH1; exact IH2].
  - cbn. destruct (f x); [apply perm_skip|]; exact IH.
  - cbn. destruct (f x), (f y); auto using perm_swap, Permutation_refl.
Qed.
Lemma is_in_spec l x : is_in l x = true <-> In x l.
Proof. unfold is_in. rewrite existsb_exists. split; [intros (y & I & E); apply Nat.eqb_eq in E; subst; exact I|intros I; exists x; split; [exact I|apply Nat.eqb_refl]]. Qed.
Lemma filter_all {A} (f : A -> bool) l : (forall x, In x l -> f x = true) -> filter f l = l.
Proof. induction l as [|x l IH]; intros H; [reflexivity|]. cbn. rewrite (H x (or_introl eq_refl)), IH; [reflexivity|]. intros y Hy. apply H. right. exact Hy. Qed.
Lemma filter_none {A} (f : A -> bool) l : (forall x, In x l -> f x = false) -> filter f l = [].
Proof. induction l as [|x l IH]; intros H; [reflexivity|]. cbn. rewrite (H x (or_introl eq_refl)). apply IH. intros y Hy. apply H. right. exact Hy. Qed.
Lemma kept_index (l : list vertex) (f : vertex -> bool) (g : nat -> bool) : forall a, (forall k, k < length l -> f (nth k l (V 0 [] 0)) = g (a + k)) ->
  map pos (filter f l) = map (fun k => nth (k - a) (map pos l) []) (filter g (seq a (length l))).
Proof.
  induction l as [|v l IH]; intros a H; [reflexivity|]. cbn [length seq filter].
  assert (map pos (filter f l) = map (fun k => nth (k - a) (map pos (v :: l)) []) (filter g (seq (S a) (length l)))) as T.
  { rewrite (IH (S a)); [|intros k Hk; replace (S a + k) with (a + S k) by lia; rewrite <- H by (cbn; lia); reflexivity]. apply map_ext_in. intros k Hk. apply filter_In in Hk. destruct Hk as [Hk _]. apply in_seq in Hk.
    replace (k - a) with (S (k - S a)) by lia. reflexivity. }
  specialize (H 0 ltac:(cbn; lia)). cbn [nth] in H. rewrite Nat.add_0_r in H. rewrite H. destruct (g a); cbn [map]; [|exact T]. rewrite Nat.sub_diag. cbn [map nth]. f_equal. exact T.
Qed.
Lemma handle_at_nth s k : k < length (verts s) -> handle_at s k = handle (nth k (verts s) (V 0 [] 0)).
Proof. intros L. unfold handle_at. apply nth_map'. exact L. Qed.
Lemma handle_at_inj s i j : wf s -> i < length (verts s) -> j < length (verts s) -> handle_at s i = handle_at s j -> i = j.
Proof.
  intros (A & _ & _) Li Lj E. unfold handle_at in E. apply (NoDup_nth (map handle (verts s)) 0) in E; [exact E|exact A|rewrite map_length; exact Li|rewrite map_length; exact Lj].
Qed.
Lemma remove_spec s ixs s' : wf s -> remove s ixs s' -> NoDup ixs /\
  Permutation (map pos (verts s')) (map (fun k => nth k (map pos (verts s)) []) (filter (fun k => negb (is_in ixs k)) (seq 0 (length (verts s))))).
Proof.
  intros W [IX H]. rewrite Forall_forall in IX. destruct (removes_perm _ _ _ H) as (vs & EH & P). pose proof W as (NH & _ & _).
  assert (NoDup (map handle vs ++ map handle (verts s'))) as ND. { rewrite <- map_app. apply (Permutation_NoDup (Permutation_map handle P)). exact NH. }
  rewrite EH in ND. split.
  { apply (NoDup_map_inv (handle_at s)). revert ND. clear. generalize (map (handle_at s) ixs). induction l as [|a l IH]; intros ND; [constructor|]. cbn in ND. inversion ND as [|? ? NI ND']; subst.
    constructor; [|apply IH, ND']. intros I. apply NI. apply in_or_app. left. exact I. }
  set (f := fun v => negb (is_in (map (handle_at s) ixs) (handle v))).
  pose proof (filter_perm f _ _ P) as PF. rewrite filter_app in PF. rewrite (filter_none f vs) in PF.
  2:{ intros v Hv. unfold f. rewrite negb_false_iff. apply is_in_spec. rewrite <- EH. apply in_map, Hv. }
  rewrite (filter_all f (verts s')) in PF.
  2:{ intros v Hv. unfold f. rewrite negb_true_iff. apply not_true_is_false. intros X. apply is_in_spec in X. 
      assert (forall (A : Type) (l1 l2 : list A) x, NoDup (l1 ++ l2) -> In x l1 -> ~ In x l2) as NA.
      { clear. induction l1 as [|a l1 IH]; intros l2 x ND I; [destruct I|]. cbn in ND. inversion ND; subst. destruct I as [-> |I]; [intros J; apply H1; apply in_or_app; right; exact J|]. apply IH; assumption. }
      apply (NA _ _ _ _ ND X). apply in_map, Hv. }
  cbn [app] in PF. rewrite <- (Permutation_map pos PF). 
  rewrite (kept_index (verts s) f (fun k => negb (is_in ixs k)) 0).
  - apply Permutation_refl' . apply map_ext_in. intros k _. rewrite Nat.sub_0_r. reflexivity.
  - intros k Hk. cbn [Nat.add]. unfold f. f_equal. rewrite <- handle_at_nth by exact Hk. apply eq_true_iff_eq. rewrite !is_in_spec. split.
    + intros I. apply in_map_iff in I. destruct I as (j & E & Ij). apply handle_at_inj in E; [subst; exact Ij|exact W|apply IX, Ij|exact Hk].
    + intros I. apply in_map, I.
Qed.

(** ---- moves ---- *)
Definition moved (M : list (nat * list R)) (v : vertex) : vertex :=
  match find (fun m => fst m =? handle v) M with Some m => V (handle v) (snd m) (info v) | None => v end.
Lemma moved_none M v : ~ In (handle v) (map fst M) -> moved M v = v.
Proof.
  intros N. unfold moved. destruct (find _ M) as [m|] eqn:E; [|reflexivity]. apply find_some in E. destruct E as [I E]. apply Nat.eqb_eq in E. destruct N. rewrite <- E. apply in_map, I.
Qed.
Lemma moves_perm M s s' : moves M s s' -> wf s -> NoDup (map fst M) -> NoDup (map snd M) -> (forall q, In q (map snd M) -> ~ In q (map pos (verts s))) ->
  Permutation (verts s') (map (moved M) (verts s)).
Proof.
  induction 1 as [s|h q M s s1 s2 (W1 & v & rest & Eh & P & C) _ IH]; intros W NF NS NP.
  - rewrite (map_ext _ (fun v => v)), map_id; [apply Permutation_refl|]. intros v. apply moved_none. intros [].
  - cbn [map fst snd] in *. inversion NF as [|? ? NF1 NF2]; subst. inversion NS as [|? ? NS1 NS2]; subst.
    assert (~ In q (map pos rest)) as NQ. { intros I. apply (NP q (or_introl eq_refl)). rewrite (Permutation_map pos P). right. exact I. }
    destruct (in_dec pos_dec q (map pos rest)) as [I|_]; [contradiction|].
    rewrite IH; [|exact W1|exact NF2|exact NS2|].
    + rewrite (Permutation_map _ C), (Permutation_map (moved _) P). cbn [map]. rewrite (moved_none M) by (cbn [handle]; exact NF1).
      unfold moved at 2. cbn [find fst snd]. rewrite Nat.eqb_refl. cbn [snd]. apply perm_skip. apply Permutation_refl'. apply map_ext_in. intros w Hw. unfold moved. cbn [find fst].
      destruct (Nat.eqb_spec (handle v) (handle w)) as [E|_]; [|reflexivity]. exfalso. destruct W as (NH & _). pose proof (Permutation_NoDup (Permutation_map handle P) NH) as ND. cbn [map] in ND. inversion ND as [|? ? X _]; subst. apply X. rewrite E. apply in_map, Hw.
    + intros q' Hq' I. rewrite (Permutation_map pos C) in I. cbn [map pos] in I. destruct I as [<- |I]; [contradiction|]. apply (NP q' (or_intror Hq')). rewrite (Permutation_map pos P). right. exact I.
Qed.
Lemma map_fst_combine {A B} (l : list A) (l' : list B) : length l' = length l -> map fst (combine l l') = l.
Proof. revert l'. induction l as [|a l IH]; intros [|b l'] L; cbn in *; try lia; [reflexivity|]. rewrite IH by lia. reflexivity. Qed.
Lemma map_snd_combine {A B} (l : list A) (l' : list B) : length l' = length l -> map snd (combine l l') = l'.
Proof. revert l'. induction l as [|a l IH]; intros [|b l'] L; cbn in *; try lia; [reflexivity|]. rewrite IH by lia. reflexivity. Qed.
Lemma move_spec s ixs p' s' : wf s -> length p' = length (verts s) -> (forall k, k < length p' -> ~ In k ixs -> nth k p' [] = nth k (map pos (verts s)) []) ->
  NoDup ixs -> NoDup (map (fun k => nth k p' []) ixs) -> (forall k, In k ixs -> ~ In (nth k p' []) (map pos (verts s))) ->
  move s ixs (map (fun k => nth k p' []) ixs) s' -> Permutation (map pos (verts s')) p'.
Proof.
  intros W Lp SAME ND NP FREE (IX & LN & H). rewrite Forall_forall in IX.
  assert (length (map (fun k => nth k p' []) ixs) = length (map (handle_at s) ixs)) as LL by (rewrite !map_length; reflexivity).
  pose proof (moves_perm _ _ _ H W) as P. rewrite map_fst_combine, map_snd_combine in P by exact LL.
  assert (NoDup (map (handle_at s) ixs)) as NH.
  { clear - W ND IX. induction ixs as [|i t IH]; [constructor|]. inversion ND as [|? ? NI ND']; subst. cbn. constructor; [|apply IH; [exact ND'|intros x Hx; apply IX; right; exact Hx]].
    intros I. apply in_map_iff in I. destruct I as (j & E & Ij). apply handle_at_inj in E; [subst; contradiction|exact W|apply IX; right; exact Ij|apply IX; left; reflexivity]. }
  specialize (P NH NP). rewrite (Permutation_map pos (P (fun q Hq => match proj1 (in_map_iff _ _ _) Hq with ex_intro _ k (conj e i) => eq_ind _ (fun q => ~ In q _) (FREE k i) _ e end))).
  rewrite map_map. match goal with |- Permutation ?a ?b => enough (a = b) as -> by apply Permutation_refl end. apply (nth_ext _ _ [] []); [rewrite map_length; lia|]. intros k Hk. rewrite map_length in Hk.
  rewrite (nth_map' _ _ k [] (V 0 [] 0)) by exact Hk. unfold moved.
  destruct (find _ _) as [m|] eqn:F.
  - apply find_some in F. destruct F as [I E]. apply Nat.eqb_eq in E. cbn [pos].
    assert (exists j, In j ixs /\ m = (handle_at s j, nth j p' [])) as (j & Ij & ->).
    { clear - I. induction ixs as [|i t IH]; [destruct I|]. cbn in I. destruct I as [<- |I]; [exists i; split; [left|]; reflexivity|]. destruct (IH I) as (j & Ij & E). exists j. split; [right; exact Ij|exact E]. }
    cbn [fst snd] in *. rewrite <- handle_at_nth in E by exact Hk. apply handle_at_inj in E; [subst; reflexivity|exact W|apply IX, Ij|exact Hk].
  - rewrite SAME; [rewrite (nth_map' pos _ k [] (V 0 [] 0)) by exact Hk; reflexivity|lia|]. intros Ik. 
    assert (In (handle_at s k, nth k p' []) (combine (map (handle_at s) ixs) (map (fun k => nth k p' []) ixs))) as J.
    { clear - Ik. induction ixs as [|i t IH]; [destruct Ik|]. cbn. destruct Ik as [-> |Ik]; [left; reflexivity|right; exact (IH Ik)]. }
    pose proof (find_none _ _ F _ J) as X. cbn [fst] in X. rewrite handle_at_nth, Nat.eqb_refl in X by exact Hk. discriminate.
Qed.
