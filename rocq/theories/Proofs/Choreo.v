(** Programs that are the projections of one global list of messages never block, whatever is buffered, and what is received is determined. *)
From Coq Require Import List Arith Bool Lia.
From Verif Require Import Model.MPI.
Import ListNotations.

Section Choreo.
Variable M : Type.
Notation net := (net M).
Record msg := Msg { src : nat; dst : nat; mtag : nat; body : M }.
(** operations of rank r for a message *)
Definition part (r : nat) (x : msg) : list (op M) :=
  if r =? src x then [Send (dst x) (mtag x) (body x)] else if r =? dst x then [Recv (src x) (mtag x)] else [].
Definition project (ch : list msg) (r : nat) : list (op M) := flat_map (part r) ch.
Definition to (q : nat) (x : msg) : list (nat * M) := if q =? dst x then [(src x, body x)] else [].

Inductive status := N | B | D.
Notation item := (msg * status)%type.
Definition rem (r : nat) (i : item) : list (op M) :=
  match snd i with N => part r (fst i) | B => if r =? dst (fst i) then [Recv (src (fst i)) (mtag (fst i))] else [] | D => [] end.
Definition buf (p q : nat) (i : item) : list (nat * M) :=
  match snd i with B => if (p =? src (fst i)) && (q =? dst (fst i)) then [(mtag (fst i), body (fst i))] else [] | _ => [] end.
Definition del (q : nat) (i : item) : list (nat * M) := match snd i with D => to q (fst i) | _ => [] end.
(** r has not done its part *)
Definition full (r : nat) (i : item) : Prop := (r = src (fst i) -> snd i = N) /\ (r = dst (fst i) -> snd i <> D).
Definition pref (xs : list item) : Prop := forall r l1 x l2, xs = l1 ++ x :: l2 -> rem r x <> [] -> forall y, In y l2 -> full r y.
Definition inv (xs : list item) (s : net) : Prop :=
  (forall x, In x xs -> src (fst x) <> dst (fst x)) /\ pref xs /\ (forall r, prog s r = flat_map (rem r) xs) /\
  (forall p q, chan s p q = flat_map (buf p q) xs) /\ (forall q, log s q = flat_map (del q) xs).

Lemma take_none t (l : list (nat * M)) : take t l = None -> forall m, ~ In (t, m) l.
Proof.
  induction l as [|[t' m'] l IH]; cbn; intros H m; [auto|]. destruct (Nat.eqb_spec t' t) as [-> |N]; [discriminate|]. destruct (take t l) as [[a b]|]; [discriminate|].
  intros [E|I]; [injection E as -> _; congruence|exact (IH eq_refl m I)].
Qed.
Lemma fm_nil {A B} (f : A -> list B) l : (forall x, In x l -> f x = []) -> flat_map f l = [].
Proof. induction l as [|x l IH]; intros H; [reflexivity|]. cbn. rewrite (H x), IH; [reflexivity| |left; reflexivity]. intros y Hy. apply H. right. exact Hy. Qed.
Lemma fm_nil_inv {A B} (f : A -> list B) l : flat_map f l = [] -> forall x, In x l -> f x = [].
Proof. induction l as [|y l IH]; intros H x I; [destruct I|]. cbn in H. apply app_eq_nil in H. destruct I as [-> | I]; [tauto|]. apply IH; tauto. Qed.
Lemma fm_app {A B} (f : A -> list B) l1 l2 : flat_map f (l1 ++ l2) = flat_map f l1 ++ flat_map f l2.
Proof. apply flat_map_app. Qed.
Lemma fm_head {A B} (f : A -> list B) l o rest : (forall x, In x l -> length (f x) <= 1) -> flat_map f l = o :: rest ->
  exists l1 x l2, l = l1 ++ x :: l2 /\ flat_map f l1 = [] /\ f x = [o] /\ rest = flat_map f l2.
Proof.
  induction l as [|y l IH]; intros H E; [discriminate|]. cbn in E. destruct (f y) as [|a fy] eqn:F.
  - destruct IH as [l1 [x [l2 [-> [E1 [E2 E3]]]]]]; [intros z Hz; apply H; right; exact Hz|exact E|]. exists (y :: l1), x, l2. cbn. rewrite F. auto.
  - pose proof (H y (or_introl eq_refl)) as L. rewrite F in L. destruct fy; [|cbn in L; lia]. cbn in E. injection E as -> E. exists [], y, l. auto.
Qed.
Lemma rem_le1 r i : length (rem r i) <= 1.
Proof. unfold rem, part. destruct (snd i); repeat match goal with |- context [if ?b then _ else _] => destruct b end; cbn; lia. Qed.
Lemma rem_send p i q t m : src (fst i) <> dst (fst i) -> rem p i = [Send q t m] -> i = (Msg p q t m, N).
Proof.
  destruct i as [[a b g c] st]. unfold rem, part. cbn. intros NE. destruct st; [|destruct (p =? b); discriminate|discriminate].
  destruct (p =? a) eqn:E; [apply Nat.eqb_eq in E; intros H; injection H as -> -> ->; subst; reflexivity|destruct (p =? b); discriminate].
Qed.
Lemma rem_recv p q t i : src (fst i) <> dst (fst i) -> rem q i = [Recv p t] -> exists m st, i = (Msg p q t m, st) /\ st <> D.
Proof.
  destruct i as [[a b g c] st]. unfold rem, part. cbn. intros NE. destruct st; [| |discriminate].
  - destruct (q =? a) eqn:E; [discriminate|]. destruct (q =? b) eqn:E2; [|discriminate]. apply Nat.eqb_eq in E2. intros H; injection H as -> ->; subst. exists c, N. split; [reflexivity|discriminate].
  - destruct (q =? b) eqn:E2; [|discriminate]. apply Nat.eqb_eq in E2. intros H; injection H as -> ->; subst. exists c, B. split; [reflexivity|discriminate].
Qed.
Lemma full_buf p q y : full p y -> buf p q y = [].
Proof.
  destruct y as [[a b g c] st]. unfold full, buf. cbn. intros [H _]. destruct st; [reflexivity| |reflexivity]. destruct (p =? a) eqn:E; [|reflexivity].
  apply Nat.eqb_eq in E. specialize (H E). discriminate.
Qed.
Lemma full_del q y : full q y -> del q y = [].
Proof.
  destruct y as [[a b g c] st]. unfold full, del, to. cbn. intros [_ H]. destruct st; [reflexivity|reflexivity|]. destruct (q =? b) eqn:E; [|reflexivity].
  apply Nat.eqb_eq in E. destruct (H E). reflexivity.
Qed.
Lemma rem_nil_buf p q y : rem q y = [] -> buf p q y = [].
Proof.
  destruct y as [[a b g c] st]. unfold rem, buf. cbn. destruct st; [reflexivity| |reflexivity]. destruct (q =? b); [discriminate|]. rewrite andb_false_r. reflexivity.
Qed.
(** replacing one item *)
Lemma pref_replace l1 x x' l2 : pref (l1 ++ x :: l2) -> (forall r, rem r x' <> [] -> rem r x <> []) -> 
  (forall r, full r x -> full r x' \/ flat_map (rem r) l1 = []) -> pref (l1 ++ x' :: l2).
Proof.
  intros P HR HF r k1 y k2 E NR z Hz. apply app_eq_app in E. destruct E as [k [[E1 E2]|[E1 E2]]].
  - (* y inside l1 or is x' *) subst l1. destruct k as [|k0 k]; cbn in E2.
    + injection E2 as -> ->. apply (P r k1 x l2); [rewrite app_nil_r; reflexivity|apply HR; exact NR|exact Hz].
    + injection E2 as <- ->. apply in_app_iff in Hz. cbn [In] in Hz.
      assert (forall z, In z (k ++ x :: l2) -> full r z) as PF by (intros w Hw; apply (P r k1 y (k ++ x :: l2)); [rewrite <- app_assoc; reflexivity|exact NR|exact Hw]).
      destruct Hz as [Hz | [<- | Hz]]; [apply PF, in_or_app; tauto| |apply PF, in_or_app; cbn; tauto].
      assert (full r x) as FX by (apply PF, in_or_app; cbn; tauto). destruct (HF r FX) as [K|K]; [exact K|].
      exfalso. apply NR. apply (fm_nil_inv _ _ K). apply in_or_app. right. left. reflexivity.
  - subst k1. destruct k as [|k0 k]; cbn in E2.
    + injection E2 as -> ->. apply (P r l1 x k2); [reflexivity|apply HR; exact NR|exact Hz].
    + injection E2 as <- ->. apply (P r (l1 ++ x :: k) y k2); [rewrite <- app_assoc; reflexivity|exact NR|exact Hz].
Qed.

Lemma inv_step xs b s s' : inv xs s -> step b s s' -> exists xs', inv xs' s' /\ map fst xs' = map fst xs /\
  exists l1 x x' l2, xs = l1 ++ x :: l2 /\ xs' = l1 ++ x' :: l2 /\ match snd x, snd x' with N, B => b = true | N, D => b = false | B, D => b = false | _, _ => False end.
Proof.
  intros [NE [P [HP [HC HL]]]] ST.
  assert (forall r x, In x xs -> length (rem r x) <= 1) as L1 by (intros; apply rem_le1).
  destruct ST as [s p q t m rp rq NPQ Ep Eq Ec | s p q t m c rq Eq Ec | s p q t m rp Ep].
  - (* rendezvous *) pose proof Ep as Ep'. rewrite HP in Ep'. destruct (fm_head _ _ _ _ (L1 p) Ep') as [l1 [x [l2 [EX [E1 [Ex E2]]]]]].
    assert (In x xs) as Ix by (rewrite EX; apply in_or_app; right; left; reflexivity).
    apply (rem_send _ _ _ _ _ (NE x Ix)) in Ex. subst x.
    pose proof Eq as Eq'. rewrite HP in Eq'. rewrite EX, fm_app in Eq'.
    assert (flat_map (rem q) l1 = []) as Q1.
    { destruct (flat_map (rem q) l1) as [|o r1] eqn:F; [reflexivity|]. exfalso. cbn in Eq'. injection Eq' as -> _.
      destruct (fm_head _ _ _ _ (fun x _ => rem_le1 q x) F) as [k1 [y [k2 [-> [_ [Ey _]]]]]].
      assert (In y xs) as Iy by (rewrite EX; apply in_or_app; left; apply in_or_app; right; left; reflexivity).
      destruct (rem_recv _ _ _ _ (NE y Iy) Ey) as [m' [st [-> ND]]].
      assert (rem p (Msg p q t m', st) = []) as RN by (apply (fm_nil_inv _ _ E1); apply in_or_app; right; left; reflexivity).
      destruct st; [unfold rem, part in RN; cbn in RN; rewrite Nat.eqb_refl in RN; discriminate| |congruence].
      rewrite HC in Ec. apply (take_none _ _ Ec m'). apply in_flat_map. exists (Msg p q t m', B). split; [exact Iy|]. unfold buf. cbn. rewrite !Nat.eqb_refl. left. reflexivity. }
    rewrite Q1 in Eq'. cbn [flat_map app] in Eq'. assert (rem q (Msg p q t m, N) = [Recv p t]) as RQ.
    { unfold rem, part. cbn. destruct (q =? p) eqn:EE; [apply Nat.eqb_eq in EE; congruence|]. rewrite Nat.eqb_refl. reflexivity. }
    assert (rem p (Msg p q t m, N) = [Send q t m]) as RP by (unfold rem, part; cbn; rewrite Nat.eqb_refl; reflexivity).
    rewrite RQ in Eq'. cbn [app] in Eq'. injection Eq' as Eq'.
    exists (l1 ++ (Msg p q t m, D) :: l2). split; [|split].
    + split; [|split; [|split; [|split]]].
      * intros y Hy. apply in_app_iff in Hy. destruct Hy as [Hy | [<- | Hy]]; [|exact NPQ|]; apply NE; rewrite EX; apply in_or_app; cbn; tauto.
      * rewrite EX in P. apply (pref_replace _ _ _ _ P).
        -- intros r H. destruct (H eq_refl).
        -- intros r [F1 F2]. destruct (Nat.eq_dec r p) as [-> |Np]; [right; exact E1|]. destruct (Nat.eq_dec r q) as [-> |Nq]; [right; exact Q1|]. left. split; cbn; intros; congruence.
      * intros r. cbn [prog]. unfold upd. rewrite fm_app. cbn [flat_map].
        destruct (r =? q) eqn:F1; [apply Nat.eqb_eq in F1; subst r; rewrite Q1; cbn; symmetry; exact Eq'|].
        destruct (r =? p) eqn:F2; [apply Nat.eqb_eq in F2; subst r; rewrite E1; cbn; exact E2|].
        rewrite HP, EX, fm_app. cbn [flat_map]. f_equal. unfold rem, part. cbn. rewrite F1, F2. reflexivity.
      * intros a b. cbn [chan]. rewrite HC, EX, !fm_app. cbn [flat_map]. reflexivity.
      * intros a. cbn [log]. unfold upd. rewrite fm_app. cbn [flat_map]. destruct (a =? q) eqn:F1.
        -- apply Nat.eqb_eq in F1. subst a. rewrite HL, EX, fm_app. cbn [flat_map].
           rewrite (fm_nil (del q) l2). ++ unfold del, to. cbn. rewrite Nat.eqb_refl, !app_nil_r. reflexivity.
           ++ intros y Hy. apply full_del. apply (P q l1 (Msg p q t m, N) l2 EX); [rewrite RQ; discriminate|exact Hy].
        -- rewrite HL, EX, fm_app. cbn [flat_map]. f_equal. unfold del, to. cbn. rewrite F1. reflexivity.
    + rewrite EX, !map_app. reflexivity.
    + exists l1, (Msg p q t m, N), (Msg p q t m, D), l2. repeat split; [exact EX].
  - (* receive *) pose proof Eq as Eq'. rewrite HP in Eq'. destruct (fm_head _ _ _ _ (L1 q) Eq') as [l1 [x [l2 [EX [E1 [Ex E2]]]]]].
    assert (In x xs) as Ix by (rewrite EX; apply in_or_app; right; left; reflexivity).
    pose proof Ex as RQ. destruct (rem_recv _ _ _ _ (NE x Ix) Ex) as [m' [st [-> ND]]]. pose proof (NE _ Ix) as NPQ. cbn in NPQ.
    assert (flat_map (buf p q) l1 = []) as B1 by (apply fm_nil; intros y Hy; apply rem_nil_buf; apply (fm_nil_inv _ _ E1 _ Hy)).
    rewrite HC, EX, fm_app, B1 in Ec. cbn [flat_map app] in Ec.
    destruct st; [|clear ND|congruence].
    { exfalso. rewrite (fm_nil (buf p q) l2) in Ec; [discriminate|]. intros y Hy. apply full_buf. apply (P p l1 (Msg p q t m', N) l2 EX); [|exact Hy].
      unfold rem, part. cbn. rewrite Nat.eqb_refl. discriminate. }
    unfold buf at 1 in Ec. cbn [fst snd src dst mtag body] in Ec. rewrite !Nat.eqb_refl in Ec. cbn in Ec. rewrite Nat.eqb_refl in Ec. injection Ec as -> Ec.
    exists (l1 ++ (Msg p q t m, D) :: l2). split; [|split].
    + split; [|split; [|split; [|split]]].
      * intros y Hy. apply in_app_iff in Hy. destruct Hy as [Hy | [<- | Hy]]; [|exact NPQ|]; apply NE; rewrite EX; apply in_or_app; cbn; tauto.
      * rewrite EX in P. apply (pref_replace _ _ _ _ P).
        -- intros r H. destruct (H eq_refl).
        -- intros r [F1 F2]. cbn in F1, F2. destruct (Nat.eq_dec r p) as [-> |Np]; [discriminate (F1 eq_refl)|]. destruct (Nat.eq_dec r q) as [-> |Nq]; [right; exact E1|]. left. split; cbn; intros; congruence.
      * intros r. cbn [prog]. unfold upd. rewrite fm_app. cbn [flat_map].
        destruct (r =? q) eqn:F1; [apply Nat.eqb_eq in F1; subst r; rewrite E1; cbn; exact E2|].
        rewrite HP, EX, fm_app. cbn [flat_map]. f_equal. unfold rem. cbn. rewrite F1. reflexivity.
      * intros a b. cbn [chan]. unfold upd2. rewrite fm_app. cbn [flat_map]. destruct ((a =? p) && (b =? q)) eqn:F.
        -- apply andb_true_iff in F. destruct F as [F1 F2]. apply Nat.eqb_eq in F1, F2. subst a b. rewrite B1. cbn. symmetry. exact Ec.
        -- rewrite HC, EX, fm_app. cbn [flat_map]. f_equal. unfold buf at 1 3. cbn. rewrite F. reflexivity.
      * intros a. cbn [log]. unfold upd. rewrite fm_app. cbn [flat_map]. destruct (a =? q) eqn:F1.
        -- apply Nat.eqb_eq in F1. subst a. rewrite HL, EX, fm_app. cbn [flat_map].
           rewrite (fm_nil (del q) l2). ++ unfold del, to. cbn. rewrite Nat.eqb_refl, !app_nil_r. reflexivity.
           ++ intros y Hy. apply full_del. apply (P q l1 (Msg p q t m, B) l2 EX); [rewrite RQ; discriminate|exact Hy].
        -- rewrite HL, EX, fm_app. cbn [flat_map]. f_equal. unfold del at 1 3, to. cbn. rewrite F1. reflexivity.
    + rewrite EX, !map_app. reflexivity.
    + exists l1, (Msg p q t m, B), (Msg p q t m, D), l2. repeat split; [exact EX].
  - (* buffer *) pose proof Ep as Ep'. rewrite HP in Ep'. destruct (fm_head _ _ _ _ (L1 p) Ep') as [l1 [x [l2 [EX [E1 [Ex E2]]]]]].
    assert (In x xs) as Ix by (rewrite EX; apply in_or_app; right; left; reflexivity). pose proof Ex as RP.
    apply (rem_send _ _ _ _ _ (NE x Ix)) in Ex. subst x. pose proof (NE _ Ix) as NPQ. cbn in NPQ.
    exists (l1 ++ (Msg p q t m, B) :: l2). split; [|split].
    + split; [|split; [|split; [|split]]].
      * intros y Hy. apply in_app_iff in Hy. destruct Hy as [Hy | [<- | Hy]]; [|exact NPQ|]; apply NE; rewrite EX; apply in_or_app; cbn; tauto.
      * rewrite EX in P. apply (pref_replace _ _ _ _ P).
        -- intros r H. unfold rem in *. cbn in *. destruct (r =? q) eqn:F; [|congruence]. unfold part. cbn. rewrite F. destruct (r =? p); discriminate.
        -- intros r [F1 F2]. destruct (Nat.eq_dec r p) as [-> |Np]; [right; exact E1|]. left. split; cbn; intros; congruence.
      * intros r. cbn [prog]. unfold upd. rewrite fm_app. cbn [flat_map].
        destruct (r =? p) eqn:F2; [apply Nat.eqb_eq in F2; subst r; rewrite E1; unfold rem at 1; cbn; destruct (p =? q) eqn:K; [apply Nat.eqb_eq in K; congruence|exact E2]|].
        rewrite HP, EX, fm_app. cbn [flat_map]. f_equal. unfold rem, part. cbn. rewrite F2. reflexivity.
      * intros a b. cbn [chan]. unfold upd2. rewrite fm_app. cbn [flat_map]. destruct ((a =? p) && (b =? q)) eqn:F.
        -- apply andb_true_iff in F. destruct F as [F1 F2]. apply Nat.eqb_eq in F1, F2. subst a b. rewrite HC, EX, fm_app. cbn [flat_map].
           rewrite (fm_nil (buf p q) l2). ++ unfold buf at 2 4. cbn. rewrite !Nat.eqb_refl. cbn. rewrite app_nil_r. reflexivity.
           ++ intros y Hy. apply full_buf. apply (P p l1 (Msg p q t m, N) l2 EX); [rewrite RP; discriminate|exact Hy].
        -- rewrite HC, EX, fm_app. cbn [flat_map]. f_equal. unfold buf at 1 3. cbn. rewrite F. reflexivity.
      * intros a. cbn [log]. rewrite HL, EX, !fm_app. reflexivity.
    + rewrite EX, !map_app. reflexivity.
    + exists l1, (Msg p q t m, N), (Msg p q t m, B), l2. repeat split; [exact EX].
Qed.

Definition init_items (ch : list msg) : list item := map (fun x => (x, N)) ch.
Lemma fm_map {A C E} (f : C -> list E) (g : A -> C) l : flat_map f (map g l) = flat_map (fun x => f (g x)) l.
Proof. induction l as [|x l IH]; [reflexivity|]. cbn. rewrite IH. reflexivity. Qed.
Lemma inv_init ch (pr : nat -> list (op M)) : (forall x, In x ch -> src x <> dst x) -> (forall r, pr r = project ch r) -> inv (init_items ch) (start pr).
Proof.
  intros NE HP. split; [|split; [|split; [|split]]].
  - intros x Hx. apply in_map_iff in Hx. destruct Hx as [y [<- Hy]]. apply NE, Hy.
  - intros r l1 x l2 E _ y Hy. assert (In y (init_items ch)) as I by (rewrite E; apply in_or_app; right; right; exact Hy).
    apply in_map_iff in I. destruct I as [z [<- _]]. split; cbn; [reflexivity|discriminate].
  - intros r. cbn [prog start]. rewrite HP. unfold project, init_items. rewrite fm_map. reflexivity.
  - intros a b. symmetry. apply fm_nil. intros x Hx. apply in_map_iff in Hx. destruct Hx as [y [<- Hy]]. reflexivity.
  - intros a. symmetry. apply fm_nil. intros x Hx. apply in_map_iff in Hx. destruct Hx as [y [<- Hy]]. reflexivity.
Qed.
Definition weight (i : item) : nat := match snd i with N => 2 | B => 1 | D => 0 end.
Definition total_weight (xs : list item) : nat := list_sum (map weight xs).
Lemma inv_run n s s' xs : run n s s' -> inv xs s -> exists xs', inv xs' s' /\ map fst xs' = map fst xs /\ n + total_weight xs' <= total_weight xs.
Proof.
  intros R. revert xs. induction R as [s|n b s s' s'' ST R IH]; intros xs I.
  - exists xs. split; [exact I|]. split; [reflexivity|]. lia.
  - destruct (inv_step _ _ _ _ I ST) as [ys [I' [E [l1 [x [x' [l2 [E1 [E2 K]]]]]]]]]. destruct (IH ys I') as [zs [I'' [E' L]]].
    exists zs. split; [exact I''|]. split; [congruence|].
    assert (S (total_weight ys) <= total_weight xs); [|lia]. subst xs ys. unfold total_weight. rewrite !map_app, !list_sum_app. cbn [map]. unfold list_sum. cbn [fold_right]. fold list_sum.
    unfold weight at 2 5. destruct (snd x), (snd x'); try destruct K; lia.
Qed.
Lemma first_open (xs : list item) : (forall x, In x xs -> snd x = D) \/ exists l1 x l2, xs = l1 ++ x :: l2 /\ (forall y, In y l1 -> snd y = D) /\ snd x <> D.
Proof.
  induction xs as [|x xs IH]; [left; intros x []|]. destruct (snd x) eqn:E.
  - right. exists [], x, xs. split; [reflexivity|]. split; [intros y []|congruence].
  - right. exists [], x, xs. split; [reflexivity|]. split; [intros y []|congruence].
  - destruct IH as [IH|[l1 [y [l2 [-> [H1 H2]]]]]].
    + left. intros y [<- | Hy]; [exact E|apply IH, Hy].
    + right. exists (x :: l1), y, l2. split; [reflexivity|]. split; [|exact H2]. intros z [<- | Hz]; [exact E|apply H1, Hz].
Qed.
Lemma done_rem r y : snd y = D -> rem r y = [].
Proof. unfold rem. intros ->. reflexivity. Qed.
Lemma inv_progress xs s : inv xs s -> (forall x, In x xs -> snd x = D) \/ exists s', step false s s'.
Proof.
  intros [NE [P [HP [HC HL]]]]. destruct (first_open xs) as [A|[l1 [x [l2 [EX [H1 H2]]]]]]; [left; exact A|right].
  assert (In x xs) as Ix by (rewrite EX; apply in_or_app; right; left; reflexivity). specialize (NE x Ix). destruct x as [[p q t m] st]. cbn in NE, H2.
  assert (forall r, prog s r = rem r (Msg p q t m, st) ++ flat_map (rem r) l2) as HPr.
  { intros r. rewrite HP, EX, fm_app. rewrite (fm_nil (rem r) l1); [reflexivity|]. intros y Hy. apply done_rem, H1, Hy. }
  assert (q <> p) as NE' by congruence. apply Nat.eqb_neq in NE' as NB.
  destruct st; [| |congruence].
  - assert (prog s p = Send q t m :: flat_map (rem p) l2) as Ep by (rewrite HPr; unfold rem, part; cbn; rewrite Nat.eqb_refl; reflexivity).
    assert (prog s q = Recv p t :: flat_map (rem q) l2) as Eq by (rewrite HPr; unfold rem, part; cbn; rewrite NB, Nat.eqb_refl; reflexivity).
    eexists. apply (@st_rendezvous M s p q t m _ _ NE Ep Eq). rewrite HC, EX, fm_app. cbn [flat_map].
    rewrite (fm_nil (buf p q) l1) by (intros y Hy; unfold buf; rewrite (H1 y Hy); reflexivity).
    rewrite (fm_nil (buf p q) l2); [reflexivity|]. intros y Hy. apply full_buf. apply (P p l1 (Msg p q t m, N) l2 EX); [|exact Hy].
    unfold rem, part. cbn. rewrite Nat.eqb_refl. discriminate.
  - assert (prog s q = Recv p t :: flat_map (rem q) l2) as Eq by (rewrite HPr; unfold rem; cbn; rewrite Nat.eqb_refl; reflexivity).
    eexists. apply (@st_receive M s p q t m (flat_map (buf p q) l2) _ Eq). rewrite HC, EX, fm_app. cbn [flat_map].
    rewrite (fm_nil (buf p q) l1). + unfold buf at 1. cbn. rewrite !Nat.eqb_refl. cbn. rewrite Nat.eqb_refl. reflexivity.
    + intros y Hy. unfold buf. rewrite (H1 y Hy). reflexivity.
Qed.
Lemma inv_finished xs s : inv xs s -> finished s -> forall x, In x xs -> snd x = D.
Proof.
  intros [NE [P [HP [HC HL]]]] F x Hx. specialize (F (dst (fst x))). rewrite HP in F. pose proof (fm_nil_inv _ _ F x Hx) as R. specialize (NE x Hx).
  unfold rem, part in R. destruct (snd x); [|rewrite Nat.eqb_refl in R; discriminate|reflexivity].
  destruct (dst (fst x) =? src (fst x)); [discriminate|]. rewrite Nat.eqb_refl in R. discriminate.
Qed.
Lemma inv_all_done xs s : inv xs s -> (forall x, In x xs -> snd x = D) ->
  finished s /\ (forall p q, chan s p q = []) /\ (forall q, log s q = flat_map (to q) (map fst xs)).
Proof.
  intros [NE [P [HP [HC HL]]]] A. split; [|split].
  - intros r. rewrite HP. apply fm_nil. intros x Hx. apply done_rem, A, Hx.
  - intros p q. rewrite HC. apply fm_nil. intros x Hx. unfold buf. rewrite (A x Hx). reflexivity.
  - intros q. rewrite HL, fm_map. clear - A. induction xs as [|x xs IH]; [reflexivity|]. cbn. rewrite IH by (intros y Hy; apply A; right; exact Hy). f_equal. unfold del. rewrite (A x (or_introl eq_refl)). reflexivity.
Qed.
(** summary *)
Theorem choreography ch (pr : nat -> list (op M)) : (forall x, In x ch -> src x <> dst x) -> (forall r, pr r = project ch r) ->
  forall n s, run n (start pr) s ->
  n <= 2 * length ch /\ (~ finished s -> exists s', step false s s') /\
  (finished s -> (forall p q, chan s p q = []) /\ forall q, log s q = flat_map (to q) ch).
Proof.
  intros NE HP n s R. destruct (inv_run _ _ _ _ R (inv_init ch pr NE HP)) as [xs [I [E L]]].
  assert (map fst (init_items ch) = ch) as EI by (unfold init_items; rewrite map_map; apply map_id).
  assert (total_weight (init_items ch) = 2 * length ch) as W.
  { clear. unfold total_weight, init_items. rewrite map_map. unfold weight. cbn [snd]. induction ch as [|x ch IH]; [reflexivity|]. cbn [map]. unfold list_sum in *. cbn [fold_right length]. lia. }
  split; [lia|]. split.
  - intros NF. destruct (inv_progress xs s I) as [A|S]; [|exact S]. destruct NF. apply (inv_all_done xs s I A).
  - intros F. pose proof (inv_finished xs s I F) as A. destruct (inv_all_done xs s I A) as [_ [C LG]]. split; [exact C|]. intros q. rewrite LG, E, EI. reflexivity.
Qed.
(** and it can always be completed without any buffering *)
Lemma choreography_completes ch (pr : nat -> list (op M)) : (forall x, In x ch -> src x <> dst x) -> (forall r, pr r = project ch r) ->
  forall n s, run n (start pr) s -> exists k s', run k s s' /\ finished s'.
Proof.
  intros NE HP n s R. destruct (inv_run _ _ _ _ R (inv_init ch pr NE HP)) as [xs [I _]]. clear R n HP pr.
  remember (total_weight xs) as w eqn:W. revert xs s I W. induction w as [w IH] using lt_wf_ind. intros xs s I W.
  destruct (inv_progress xs s I) as [A|[s' ST]].
  - exists 0, s. split; [constructor|]. apply (inv_all_done xs s I A).
  - destruct (inv_run 1 s s' xs) as [ys [I' [_ L]]]; [econstructor; [exact ST|constructor]|exact I|].
    destruct (IH (total_weight ys) ltac:(lia) ys s' I' eq_refl) as [k [s'' [R F]]]. exists (S k), s''. split; [econstructor; [exact ST|exact R]|exact F].
Qed.
End Choreo.

(** ---- counting messages, for arbitrary programs ---- *)
Section Counting.
Variable M : Type.
Definition is_send_to (q : nat) (o : op M) : bool := match o with Send d _ _ => d =? q | Recv _ _ => false end.
Definition is_recv_from (p : nat) (o : op M) : bool := match o with Recv s _ => s =? p | Send _ _ _ => false end.
Definition sends (q : nat) (l : list (op M)) : nat := length (filter (is_send_to q) l).
Definition recvs (p : nat) (l : list (op M)) : nat := length (filter (is_recv_from p) l).
(** number of messages received from p *)
Definition got_from (p : nat) (l : list (nat * M)) : nat := length (filter (fun e => fst e =? p) l).
Lemma take_length t (l : list (nat * M)) m c : take t l = Some (m, c) -> length l = S (length c).
Proof.
  revert m c. induction l as [|[t' m'] l IH]; cbn; intros m c H; [discriminate|]. destruct (t' =? t); [injection H as _ <-; reflexivity|].
  destruct (take t l) as [[a b]|]; [|discriminate]. injection H as _ <-. cbn. rewrite (IH _ _ eq_refl). reflexivity.
Qed.
Lemma got_snoc p (l : list (nat * M)) a m : got_from p (l ++ [(a, m)]) = got_from p l + if a =? p then 1 else 0.
Proof. unfold got_from. rewrite filter_app, app_length. cbn. destruct (a =? p); reflexivity. Qed.
(** received + buffered + still to be sent = all messages of the channel; received + still to receive = all receives *)
Lemma channel_step b s s' p q : step b s s' ->
  got_from p (log s' q) + length (chan s' p q) + sends q (prog s' p) = got_from p (log s q) + length (chan s p q) + sends q (prog s p) /\
  got_from p (log s' q) + recvs p (prog s' q) = got_from p (log s q) + recvs p (prog s q).
Proof.
  assert (forall d t (m : M) l, sends q (Send d t m :: l) = (if d =? q then 1 else 0) + sends q l) as S1 by (intros; unfold sends; cbn; destruct (d =? q); reflexivity).
  assert (forall d t l, sends q (Recv d t :: l) = sends q l) as S2 by reflexivity.
  assert (forall d t (m : M) l, recvs p (Send d t m :: l) = recvs p l) as R1 by reflexivity.
  assert (forall d t l, recvs p (Recv d t :: l) = (if d =? p then 1 else 0) + recvs p l) as R2 by (intros; unfold recvs; cbn; destruct (d =? p); reflexivity).
  intros ST. destruct ST as [s a b' t m rp rq NPQ Ep Eq Ec | s a b' t m c rq Eq Ec | s a b' t m rp Ep]; cbn [prog chan log]; unfold upd, upd2.
  - repeat match goal with |- context [?x =? ?y] => destruct (Nat.eqb_spec x y); try (exfalso; lia); subst end;
      rewrite ?got_snoc, ?Ep, ?Eq, ?S1, ?S2, ?R1, ?R2;
      repeat match goal with |- context [?x =? ?y] => destruct (Nat.eqb_spec x y); try (exfalso; lia); subst end; lia.
  - pose proof (take_length _ _ _ _ Ec) as TL. repeat match goal with |- context [?x =? ?y] => destruct (Nat.eqb_spec x y); try (exfalso; lia); subst end; cbn [andb];
      rewrite ?got_snoc, ?Eq, ?S1, ?S2, ?R1, ?R2;
      repeat match goal with |- context [?x =? ?y] => destruct (Nat.eqb_spec x y); try (exfalso; lia); subst end; lia.
  - repeat match goal with |- context [?x =? ?y] => destruct (Nat.eqb_spec x y); try (exfalso; lia); subst end; cbn [andb];
      rewrite ?Ep, ?S1, ?R1, ?app_length; cbn [length];
      repeat match goal with |- context [?x =? ?y] => destruct (Nat.eqb_spec x y); try (exfalso; lia); subst end; lia.
Qed.
Lemma channel_run n s s' p q : run n s s' ->
  got_from p (log s' q) + length (chan s' p q) + sends q (prog s' p) = got_from p (log s q) + length (chan s p q) + sends q (prog s p) /\
  got_from p (log s' q) + recvs p (prog s' q) = got_from p (log s q) + recvs p (prog s q).
Proof.
  intros R. induction R as [s|n b s s' s'' ST R IH]; [split; reflexivity|]. destruct (channel_step b s s' p q ST) as [A1 A2]. destruct IH as [B1 B2]. split; congruence.
Qed.
(** a rank expecting more messages than are sent never finishes *)
Lemma starved pr n s p q : run n (start pr) s -> sends q (pr p) < recvs p (pr q) -> prog s q <> [].
Proof.
  intros R L E. destruct (channel_run n _ s p q R) as [E1 E2]. cbn [prog chan log start] in E1, E2. rewrite E in E2. change (recvs p (@nil (op M))) with 0 in E2. change (got_from p (@nil (nat * M))) with 0 in E1, E2.
  cbn [length] in E1. lia.
Qed.
End Counting.
