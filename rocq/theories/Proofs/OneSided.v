(** Ranks in lock step up to the last iteration, where one of them waits for a neighbour that sends nothing. *)
From Coq Require Import Reals List Arith Bool ZArith Lia Lra FunctionalExtensionality.
From Verif Require Import Model.Base Model.MPI Model.Process Model.SDF Model.Mesh Model.Forces Model.InitGrid Model.Interp Model.Blocker Model.Localize
  Model.Migration Model.WhereTo Model.Generator Model.Parallel Spec.Lockstep Proofs.Choreo Proofs.ProcessProofs Proofs.ExchangeProofs Proofs.ListAux Proofs.MeshAux
  Proofs.AggregateProofs Proofs.ParallelProofs Proofs.StarveProofs.
Import ListNotations.
Local Open Scope nat_scope.

Lemma prun_weaken {M A} n (s s' : pnet M A) : prun no_buffering n s s' -> prun (@anything) n s s'.
Proof. intros H. induction H as [s|n b s s1 s' OK ST H IH]; [constructor|]. econstructor; [exact I|exact ST|exact IH]. Qed.
Lemma prun_app {M A} n m (s s' s'' : pnet M A) : prun (@anything) n s s' -> prun (@anything) m s' s'' -> prun (@anything) (n + m) s s''.
Proof. intros H K. induction H as [s|n b s s1 s' OK ST H IH]; [exact K|]. cbn [Nat.add]. econstructor; [exact OK|exact ST|apply IH, K]. Qed.
(** the programs P can be run to the programs P' with nothing left in the buffers *)
Definition reach {M A} (P P' : nat -> proc M A) : Prop := exists n, prun (@anything) n (pstart P) (pstart P').
Lemma reach_refl {M A} (P : nat -> proc M A) : reach P P.
Proof. exists 0. constructor. Qed.
Lemma reach_trans {M A} (P P' P'' : nat -> proc M A) : reach P P' -> reach P' P'' -> reach P P''.
Proof. intros [n H] [m K]. exists (n + m). exact (prun_app _ _ _ _ _ H K). Qed.
Lemma reach_play {X Y} size ch (f : nat -> proc pmsg X) v (g : nat -> X -> proc pmsg Y) (P : nat -> proc pmsg Y) :
  plays size ch f v -> inside size ch -> (forall r, r < size -> P r = pbind (f r) (g r)) -> reach P (fun r => if r <? size then g r (v r) else P r).
Proof.
  intros PL IN E.
  set (f' := fun r => if r <? size then pbind (f r) (fun x => Done (Some x)) else Done None).
  set (v' := fun r => if r <? size then Some (v r) else None).
  set (g' := fun r (x : option X) => match x with Some x => g r x | None => P r end).
  assert (forall r, follows _ _ (f' r) (project _ ch r) (flat_map (to _ r) ch) (v' r)) as FO.
  { intros r. unfold f', v'. destruct (Nat.ltb_spec r size) as [L|L]; [apply follows_last with (a := v r); [apply PL, L|reflexivity]|].
    destruct (inside_prj size ch r IN L) as [-> ->]. constructor. }
  assert (forall x, In x ch -> src _ x <> dst _ x) as ND by (intros x Hx; apply (IN x Hx)).
  destruct (proc_completes _ _ ch f' v' ND FO 0 _ (prun_nil _ _)) as (k & s' & R & AE). apply prun_weaken in R.
  destruct (proc_choreography _ _ ch f' v' ND FO _ _ _ R) as (_ & _ & D). destruct (D AE) as [C V].
  apply (followed_run _ _ _ _ g') in R. exists k.
  assert (followed_by (pstart f') g' = pstart P) as E1.
  { unfold followed_by, pstart. cbn [pp pc]. f_equal. apply functional_extensionality. intros r. unfold f', g'. destruct (Nat.ltb_spec r size) as [L|L]; [|reflexivity].
    rewrite pbind_assoc. cbn [pbind]. symmetry. apply E, L. }
  assert (followed_by s' g' = pstart (fun r => if r <? size then g r (v r) else P r)) as E2.
  { unfold followed_by, pstart. f_equal.
    - apply functional_extensionality. intros r. pose proof (V r) as Vr. unfold ended in Vr. rewrite Vr. cbn [pbind]. unfold v', g'. destruct (r <? size); reflexivity.
    - apply functional_extensionality. intros x. apply functional_extensionality. intros y. apply C. }
  rewrite E1, E2 in R. exact R.
Qed.

Section L.
Variable size : nat.
Hypothesis S2 : 2 <= size.
Variable Q : par_backend.
Variables (P : nat -> problem) (ext : list (list R)) (K fuel : nat).
Hypothesis same_iter : forall r, g_max_iter (P r) = INR K.
Variable p : nat -> list pt.
(** all ranks at the beginning of iteration j *)
Definition at_iter (j r : nat) : proc pmsg out := if r <? size then par_loop Q size (P r) ext r (fuel - j) j (after Q size P ext j p r) else Done None.
Lemma reach_iter j : S j < K -> K <= fuel -> agree size Q P ext j (after Q size P ext j p) -> rank0_goes_on Q size P ext j (after Q size P ext j p) -> reach (at_iter j) (at_iter (S j)).
Proof.
  intros LK LF AE [F0 MV]. set (q := after Q size P ext j p) in *.
  pose (g := fun r recv => let '(p3, t4) := with_ghosts Q (P r) ext r j (q r) recv in
            let F := compute_forces (g_dim (P r)) (g_fh (P r)) (L0mult (g_dim (P r))) p3 t4 in
            let p' := delete_ghosts (next_points (P r) p3 t4) (recv_count (exported Q size P ext j q r) recv) in
            if (r =? 0)%nat then
              match F with
              | [] => Done (Some (Err ValueError))
              | _ => if Rltb (max_move (g_delta_t (P r)) F) (1000 * g_h0 (P r)) then par_loop Q size (P r) ext r (fuel - S j) (S j) p' else Done (Some (Err AssertionError))
              end
            else par_loop Q size (P r) ext r (fuel - S j) (S j) p').
  assert (reach (at_iter j) (fun r => if r <? size then g r (incoming Q size P ext j q r) else at_iter j r)) as H.
  { apply (reach_play size (it_chor size Q P ext j q) (fun r => exchange_p size r (exported Q size P ext j q r)) (incoming Q size P ext j q) g).
    - apply plays_exchanged; [exact S2|exact AE].
    - apply it_inside; exact S2.
    - intros r L. unfold at_iter. apply Nat.ltb_lt in L as L'. rewrite L'. replace (fuel - j) with (S (fuel - S j)) by lia. cbn [par_loop]. fold q.
      rewrite (exported_eq size Q P ext j q AE r L). f_equal. apply functional_extensionality. intros recv. unfold g.
      destruct (with_ghosts _ _ _ _ _ _ _) as [p3 t4]. rewrite same_iter. assert (Reqb (INR j) (INR K - 1) = false) as ->; [|reflexivity].
      apply Reqb_false. intros E. apply lt_INR in LK. rewrite S_INR in LK. lra. }
  assert (at_iter (S j) = (fun r => if r <? size then g r (incoming Q size P ext j q r) else at_iter j r)) as ->; [|exact H]. apply functional_extensionality. intros r. unfold at_iter at 1 2. destruct (Nat.ltb_spec r size) as [L|L]; [|reflexivity].
  cbn [after]. fold q. unfold g. change (recv_count (exported Q size P ext j q r) (incoming Q size P ext j q r)) with (lost Q size P ext j q r).
  unfold moved. unfold local_mesh in *. destruct (with_ghosts Q (P r) ext r j (q r) (incoming Q size P ext j q r)) as [p3 t4] eqn:W. cbv zeta. cbn [fst snd].
  destruct (Nat.eqb_spec r 0) as [-> |N]; [|reflexivity]. rewrite W in F0, MV. cbn [fst snd] in F0, MV. destruct (compute_forces _ _ _ p3 t4) as [|v F] eqn:CF; [congruence|].
  apply Rltb_true in MV. rewrite MV. reflexivity.
Qed.
Lemma reach_last : 0 < K -> K <= fuel -> (forall j, S j < K -> agree size Q P ext j (after Q size P ext j p)) ->
  (forall j, S j < K -> rank0_goes_on Q size P ext j (after Q size P ext j p)) -> reach (at_iter 0) (at_iter (K - 1)).
Proof.
  intros K0 LF HA HG. assert (forall n, n < K -> reach (at_iter 0) (at_iter n)) as G; [|apply G; lia].
  induction n as [|n IH]; intros L; [apply reach_refl|]. apply reach_trans with (at_iter n); [apply IH; lia|]. apply reach_iter; [exact L|exact LF|apply HA, L|apply HG, L].
Qed.

End L.

(** ---- counting messages in the last iteration ---- *)
Section Count.
Variable size : nat.
Variable Q : par_backend.
Variables (P : nat -> problem) (ext : list (list R)).
Variables (c : nat) (q : nat -> list pt).
Definition last_it (r : nat) : proc pmsg out :=
  match table Q size (P r) ext r c (q r) with
  | None => Done (Some (Err OtherError))
  | Some ex => pbind (exchange_p size r ex) (fun recv => let '(p3, t4) := with_ghosts Q (P r) ext r c (q r) recv in par_finish Q size (P r) r p3 t4)
  end.
Lemma last_eq K k r : (forall r, g_max_iter (P r) = INR K) -> S c = K -> par_loop Q size (P r) ext r (S k) c (q r) = last_it r.
Proof.
  intros same_iter LAST. cbn [par_loop]. unfold last_it. destruct (table _ _ _ _ _ _ _) as [ex|]; [|reflexivity]. f_equal. apply functional_extensionality. intros recv.
  destruct (with_ghosts _ _ _ _ _ _ _) as [p3 t4]. rewrite same_iter. assert (Reqb (INR c) (INR K - 1) = true) as ->; [|reflexivity]. apply Reqb_true. rewrite <- LAST, S_INR. lra.
Qed.
Lemma agg_sends r m d : d <> 0 \/ r = 0 -> sends_le d (aggregate_p size r m) 0.
Proof.
  intros H. unfold aggregate_p. destruct (Nat.eqb_spec r 0) as [-> |N].
  - assert (forall u l, sends_le d (recv_all u l) 0) as RA. { intros u. induction l as [|a l IH]; cbn [recv_all]; [exact I|]. cbn [sends_le]. intros x. apply (sends_bind d _ _ 0 0); [exact IH|]. intros y. exact I. }
    assert (forall l, sends_le d (recv_pairs l) 0) as RP. { induction l as [|a l IH]; cbn [recv_pairs]; [exact I|]. cbn [sends_le]. intros x y. apply (sends_bind d _ _ 0 0); [exact IH|]. intros z. exact I. }
    repeat (apply (sends_bind d _ _ 0 0); [first [apply RA|apply RP]|]; intros ?). exact I.
  - cbn [sends_le]. destruct (Nat.eqb_spec 0 d) as [<- |]; [lia|]. exact I.
Qed.
Lemma agg_sends4 r m d : sends_le d (aggregate_p size r m) 4.
Proof.
  destruct (Nat.eq_dec r 0) as [-> |N]; [apply sends_le_mono with (g := 0); [lia|]; apply agg_sends; auto|].
  unfold aggregate_p. destruct (Nat.eqb_spec r 0); [lia|]. cbn [sends_le]. destruct (0 =? d); exact I.
Qed.
Lemma fin_sends r p3 t4 d g : (forall m, sends_le d (aggregate_p size r m) g) -> sends_le d (par_finish Q size (P r) r p3 t4) g.
Proof.
  intros H. unfold par_finish. destruct (run_fix _ _ _) as [m|e]; [|exact I]. replace g with (g + 0) by lia. apply sends_bind; [apply H|]. intros x. destruct (r =? 0); exact I.
Qed.
(** nothing for the neighbour d *)
Definition no_rows (r d : nat) (e : exports) : Prop := if d =? r + 1 then nsa e = 0 else nsb e = 0.
Lemma ex_sends r d e : (d = r + 1 \/ r = d + 1) -> no_rows r d e -> sends_le d (exchange_p size r e) 0.
Proof.
  intros AD NR. unfold exchange_p. destruct (_ && _); [exact I|]. unfold no_rows in NR. destruct (Nat.eqb_spec d (r + 1)) as [E|N].
  - rewrite NR. cbn [Nat.eqb negb andb]. assert (r - 1 =? d = false) as N1 by (apply Nat.eqb_neq; lia).
    destruct (negb (nsb e =? 0) && negb (r =? 0)); cbn [sends_le]; rewrite ?N1; destruct (negb (r =? size - 1)); cbn [sends_le]; destruct (negb (r =? 0)); cbn [sends_le]; auto.
  - rewrite NR. cbn [Nat.eqb negb andb]. assert (r + 1 =? d = false) as N1 by (apply Nat.eqb_neq; lia).
    destruct (negb (r =? size - 1)); cbn [sends_le]; destruct (negb (nsa e =? 0)); cbn [andb sends_le]; rewrite ?N1; destruct (negb (r =? 0)); cbn [sends_le]; auto.
Qed.
Lemma ex_sends1 r d e : sends_le d (exchange_p size r e) 1.
Proof.
  unfold exchange_p. destruct (_ && _); [exact I|].
  destruct (negb (nsb e =? 0) && negb (r =? 0)); destruct (negb (r =? size - 1)); destruct (negb (nsa e =? 0)); destruct (negb (r =? 0)); cbn [andb sends_le];
  destruct (Nat.eqb_spec (r - 1) d); destruct (Nat.eqb_spec (r + 1) d); try lia; cbn [sends_le]; auto.
Qed.
Lemma ex_silent r d e : (d = r + 1 \/ r = d + 1) -> no_rows r d e -> silent d 11 (exchange_p size r e).
Proof.
  intros AD NR. unfold exchange_p. destruct (_ && _); [exact I|]. unfold no_rows in NR. destruct (Nat.eqb_spec d (r + 1)) as [E|N].
  - rewrite NR. cbn [Nat.eqb negb andb].
    destruct (negb (nsb e =? 0) && negb (r =? 0)); cbn [silent]; [split; [lia|]|]; destruct (negb (r =? size - 1)); cbn [silent]; destruct (negb (r =? 0)); cbn [silent]; auto.
  - rewrite NR. cbn [Nat.eqb negb andb].
    destruct (negb (r =? size - 1)); cbn [silent]; destruct (negb (nsa e =? 0)); cbn [andb silent]; try (intros ?); try (split; [lia|]); destruct (negb (r =? 0)); cbn [silent]; auto.
Qed.
Lemma agg_silent r m d : silent d 11 (aggregate_p size r m).
Proof.
  unfold aggregate_p. destruct (Nat.eqb_spec r 0) as [-> |N].
  - assert (forall u l, silent d 11 (recv_all u l)) as RA. { intros u. induction l as [|a l IH]; cbn [recv_all]; [exact I|]. cbn [silent]. intros x. apply silent_bind; [exact IH|]. intros y. exact I. }
    assert (forall l, silent d 11 (recv_pairs l)) as RP. { induction l as [|a l IH]; cbn [recv_pairs]; [exact I|]. cbn [silent]. intros x y. apply silent_bind; [exact IH|]. intros z. exact I. }
    repeat (apply silent_bind; [first [apply RA|apply RP]|]; intros ?). exact I.
  - cbn [silent]. unfold coll. repeat split; intros [? ?]; discriminate.
Qed.
Lemma last_silent r d : (d = r + 1 \/ r = d + 1) -> (forall e, table Q size (P r) ext r c (q r) = Some e -> no_rows r d e) -> silent d 11 (last_it r).
Proof.
  intros AD NR. unfold last_it. destruct (table _ _ _ _ _ _ _) as [ex|]; [|exact I]. apply silent_bind; [apply ex_silent; [exact AD|apply NR; reflexivity]|].
  intros recv. destruct (with_ghosts _ _ _ _ _ _ _) as [p3 t4]. unfold par_finish. destruct (run_fix _ _ _) as [m|e]; [|exact I]. apply silent_bind; [apply agg_silent|]. intros x. destruct (r =? 0); exact I.
Qed.
Definition active_here (e : exports) : Prop := nsb e <> 0 \/ nsa e <> 0.
Lemma ex_needs r a e : a < size -> (a = r + 1 \/ r = a + 1) -> active_here e -> needs a (exchange_p size r e) 1.
Proof.
  intros La AD AC. unfold exchange_p. assert ((nsb e =? 0) && (nsa e =? 0) = false) as ->. { apply andb_false_iff. destruct AC as [H|H]; apply Nat.eqb_neq in H; auto. }
  assert (forall b (d u : nat) (m : pmsg) (x : proc pmsg (list (list R))) k, needs a x k -> needs a (if b : bool then Out d u m x else x) k) as OI.
  { intros b d u m x k H. destruct b; [|exact H]. rewrite needs_eq. destruct k; [exact I|exact H]. }
  apply OI. destruct AD as [-> | ->].
  - destruct (Nat.eqb_spec r (size - 1)); [lia|]. cbn [negb]. rewrite needs_eq. intros m. rewrite Nat.eqb_refl. apply needs_0.
  - assert (needs a (if negb (a + 1 =? 0) then Inp (a + 1 - 1) 11 (fun m : pmsg => Done (M := pmsg) ([] ++ pts_in m)) else Done ([] ++ [])) 1) as G.
    { destruct (Nat.eqb_spec (a + 1) 0); [lia|]. cbn [negb]. rewrite needs_eq. intros m. replace (a + 1 - 1) with a by lia. rewrite Nat.eqb_refl. apply needs_0. }
    destruct (Nat.eqb_spec (a + 1) 0); [lia|]. cbn [negb] in *. destruct (negb (a + 1 =? size - 1)).
    + rewrite needs_eq. intros m. destruct (Nat.eqb_spec (a + 1 + 1) a); [lia|]. apply OI. rewrite needs_eq. intros m'. replace (a + 1 - 1) with a by lia. rewrite Nat.eqb_refl. apply needs_0.
    + apply OI. rewrite needs_eq. intros m'. replace (a + 1 - 1) with a by lia. rewrite Nat.eqb_refl. apply needs_0.
Qed.
Lemma ex_hears r a e : a < size -> (a = r + 1 \/ r = a + 1) -> active_here e -> hears a 11 (exchange_p size r e).
Proof.
  intros La AD AC. unfold exchange_p. assert ((nsb e =? 0) && (nsa e =? 0) = false) as ->. { apply andb_false_iff. destruct AC as [H|H]; apply Nat.eqb_neq in H; auto. }
  assert (forall b (d u : nat) (m : pmsg) (x : proc pmsg (list (list R))), hears a 11 x -> hears a 11 (if b : bool then Out d u m x else x)) as OI.
  { intros b d u m x H. destruct b; exact H. }
  apply OI. destruct AD as [-> | ->].
  - destruct (Nat.eqb_spec r (size - 1)); [lia|]. cbn [negb hears]. left. auto.
  - destruct (Nat.eqb_spec (a + 1) 0); [lia|]. cbn [negb]. destruct (negb (a + 1 =? size - 1)); [cbn [hears]; right; intros m|]; apply OI; cbn [hears]; left; lia.
Qed.
Lemma last_hears a b e : a < size -> (a = b + 1 \/ b = a + 1) -> table Q size (P b) ext b c (q b) = Some e -> active_here e -> hears a 11 (last_it b).
Proof. intros La AD E AC. unfold last_it. rewrite E. apply hears_bind0, ex_hears; assumption. Qed.
(** the part of the exchange before rank r has heard from a *)
Lemma recv_needs_n f u l n : n <= count_occ Nat.eq_dec l f -> needs f (recv_all u l) n.
Proof.
  revert n. induction l as [|a l IH]; intros n H; cbn [count_occ] in H; [assert (n = 0) as -> by lia; apply needs_0|]. cbn [recv_all]. rewrite needs_eq. destruct n as [|n]; [exact I|]. intros m.
  destruct (Nat.eq_dec a f) as [-> |N]; [rewrite Nat.eqb_refl|apply Nat.eqb_neq in N; rewrite N]; apply needs_bind0, IH; lia.
Qed.
Lemma rest_occ q0 : 0 < q0 < size -> count_occ Nat.eq_dec (seq 1 (size - 1)) q0 = 1.
Proof.
  intros L. pose proof (seq_NoDup (size - 1) 1) as ND. rewrite (NoDup_count_occ Nat.eq_dec) in ND. specialize (ND q0).
  assert (In q0 (seq 1 (size - 1))) as I by (apply in_seq; lia). apply (count_occ_In Nat.eq_dec) in I. lia.
Qed.
Lemma pairs_needs f l n : n <= 2 * count_occ Nat.eq_dec l f -> needs f (recv_pairs l) n.
Proof.
  revert n. induction l as [|a l IH]; intros n H; cbn [count_occ] in H; [assert (n = 0) as -> by lia; apply needs_0|]. cbn [recv_pairs].
  rewrite needs_eq. destruct n as [|n]; [exact I|]. intros m. destruct (Nat.eq_dec a f) as [-> |N].
  - rewrite Nat.eqb_refl. rewrite needs_eq. destruct n as [|n]; [exact I|]. intros m'. rewrite Nat.eqb_refl. apply needs_bind0, IH. lia.
  - apply Nat.eqb_neq in N. rewrite N. rewrite needs_eq. intros m'. rewrite N. apply needs_bind0, IH. lia.
Qed.
Lemma agg_needs b m : 0 < b < size -> needs b (aggregate_p size 0 m) 4.
Proof.
  intros L. unfold aggregate_p. cbn [Nat.eqb]. apply (needs_bind b _ _ 1 3); [apply recv_needs_n; rewrite rest_occ by lia; lia|]. intros lp.
  apply (needs_bind b _ _ 1 2); [apply recv_needs_n; rewrite rest_occ by lia; lia|]. intros lt.
  apply needs_bind0, (pairs_needs b _ 2). rewrite rest_occ by lia. lia.
Qed.
(** results that are not a mesh are followed by five receives from b: a rank that returns a mesh does so here too *)
Definition wait_for (b : nat) (a : out) : proc pmsg out := match a with Some (Ok (Some _)) => Done a | _ => pbind (recv_all coll (repeat b 5)) (fun _ => Done a) end.
Lemma wait_needs b a n : n <= 5 -> (forall m, a <> Some (Ok (Some m))) -> needs b (wait_for b a) n.
Proof.
  intros L N. unfold wait_for. destruct a as [[[m|]|e]|]; [exfalso; apply (N m); reflexivity| | |]; apply needs_bind0, recv_needs_n; cbn [repeat count_occ]; destruct (Nat.eq_dec b b); lia.
Qed.
Lemma wait_sends b a d : sends_le d (wait_for b a) 0.
Proof.
  assert (forall u l, sends_le d (recv_all u l) 0) as RA. { intros u. induction l as [|x l IH]; cbn [recv_all]; [exact I|]. cbn [sends_le]. intros y. apply (sends_bind d _ _ 0 0); [exact IH|]. intros z. exact I. }
  unfold wait_for. destruct a as [[[m|]|e]|]; try exact I; (apply (sends_bind d _ _ 0 0); [apply RA|]; intros z; exact I).
Qed.
Lemma fin_needs b p3 t4 : 0 < b < size -> needs b (pbind (par_finish Q size (P 0) 0 p3 t4) (wait_for b)) 4.
Proof.
  intros L. unfold par_finish. destruct (run_fix _ _ _) as [m|e]; [|cbn [pbind]; apply wait_needs; [lia|discriminate]]. rewrite pbind_assoc. apply needs_bind0, agg_needs, L.
Qed.
Lemma root_needs4 b : 0 < b < size -> needs b (pbind (last_it 0) (wait_for b)) 4.
Proof.
  intros L. unfold last_it. destruct (table _ _ _ _ _ _ _) as [ex|]; [|cbn [pbind]; apply wait_needs; [lia|discriminate]]. rewrite pbind_assoc. apply (needs_bind b _ _ 0 4); [apply needs_0|].
  intros recv. destruct (with_ghosts _ _ _ _ _ _ _) as [p3 t4]. apply fin_needs, L.
Qed.
Lemma root_needs5 e : 1 < size -> table Q size (P 0) ext 0 c (q 0) = Some e -> active_here e -> needs 1 (pbind (last_it 0) (wait_for 1)) 5.
Proof.
  intros L E AC. unfold last_it. rewrite E. rewrite pbind_assoc. apply (needs_bind 1 _ _ 1 4); [apply ex_needs; [lia|lia|exact AC]|].
  intros recv. destruct (with_ghosts _ _ _ _ _ _ _) as [p3 t4]. apply fin_needs. lia.
Qed.
Lemma last_sends r d : (d = r + 1 \/ r = d + 1) -> (forall e, table Q size (P r) ext r c (q r) = Some e -> no_rows r d e) -> sends_le d (last_it r) (if (d =? 0) && negb (r =? 0) then 4 else 0).
Proof.
  intros AD NR. unfold last_it. destruct (table _ _ _ _ _ _ _) as [ex|]; [|exact I]. apply (sends_bind d _ _ 0); [apply ex_sends; [exact AD|apply NR; reflexivity]|].
  intros recv. destruct (with_ghosts _ _ _ _ _ _ _) as [p3 t4]. apply fin_sends. intros m. destruct (Nat.eqb_spec d 0), (Nat.eqb_spec r 0); cbn [andb negb]; [apply agg_sends; auto|apply agg_sends4|apply agg_sends; auto|apply agg_sends; auto].
Qed.
Lemma last_needs a b e : a < size -> (a = b + 1 \/ b = a + 1) -> table Q size (P b) ext b c (q b) = Some e -> active_here e -> needs a (last_it b) 1.
Proof. intros La AD E AC. unfold last_it. rewrite E. apply needs_bind0, ex_needs; assumption. Qed.
End Count.

Lemma limited_part {M A C} q f (p : proc M A) (F : A -> proc M C) : forall g k, sends_le q p g -> needs f p k -> limited q f (pbind p F) g k.
Proof.
  induction p as [a|d u m p IH|d u h IH]; intros g k H K; cbn [pbind]; rewrite limited_eq; (destruct k as [|k]; [exact I|]); rewrite needs_eq in K.
  - destruct K.
  - cbn [sends_le] in H. destruct (d =? q); [destruct g as [|g]; [exact H|]|]; apply IH; assumption.
  - cbn [sends_le] in H. intros m. apply IH; [apply H|apply K].
Qed.
(** two ranks that wait for each other *)
Lemma starved_mutual {M A} (s : pnet M A) q p : q <> p ->
  (exists n j k g, needs p (pp s q) n /\ limited q q (pp s p) j k /\ length (pc s p q) + j < n /\ sends_le p (pp s q) g /\ length (pc s q p) + g < k) ->
  forall t s', bruns M A t s s' -> forall a, ~ ended s' q a.
Proof.
  intros N1 H t s' B. induction B as [s|t r s s1 s' E B IH].
  - intros a K. destruct H as (n & j & k & g & H1 & _ & L & _). unfold ended in K. rewrite K in H1. rewrite needs_eq in H1. destruct n; [lia|destruct H1].
  - apply IH. clear IH B. destruct H as (n & j & k & g & H1 & H2 & L & H3 & L'). unfold bstep in E. destruct (Nat.eq_dec r q) as [-> |Nq]; [|destruct (Nat.eq_dec r p) as [-> |Np]].
    + destruct (pp s q) as [a|d u m x|d u h] eqn:Eq; [discriminate| |].
      * injection E as <-. cbn [pp pc]. rewrite upd_same, !upd_other by congruence. rewrite (upd2_other _ _ _ p q) by (intros [? ?]; congruence). cbn [sends_le] in H3.
        rewrite needs_eq in H1. destruct n as [|n]; [lia|]. destruct (Nat.eqb_spec d p) as [-> |Nd].
        -- destruct g as [|g]; [destruct H3|]. exists (S n), j, k, g. rewrite upd2_same, app_length. cbn [length]. split; [exact H1|]. split; [exact H2|]. split; [exact L|]. split; [exact H3|lia].
        -- exists (S n), j, k, g. rewrite upd2_other by (intros [? ?]; congruence). auto.
      * destruct (take u (pc s d q)) as [[m c]|] eqn:Ec; [|discriminate]. pose proof (take_length _ _ _ _ _ Ec) as TL. injection E as <-. cbn [pp pc]. rewrite upd_same, !upd_other by congruence. rewrite (upd2_other _ _ _ q p) by (intros [? ?]; congruence). rewrite needs_eq in H1. destruct n as [|n]; [lia|].
        specialize (H1 m). cbn [sends_le] in H3. specialize (H3 m). destruct (Nat.eqb_spec d p) as [-> |Nd].
        -- exists n, j, k, g. rewrite upd2_same. rewrite TL in L. split; [exact H1|]. split; [exact H2|]. split; [lia|]. auto.
        -- exists (S n), j, k, g. rewrite upd2_other by (intros [? ?]; congruence). auto.
    + destruct k as [|k]; [lia|]. rewrite limited_eq in H2. destruct (pp s p) as [a|d u m x|d u h] eqn:Ep; [discriminate| |].
      * injection E as <-. cbn [pp pc]. rewrite upd_same, !upd_other by congruence. rewrite (upd2_other _ _ _ q p) by (intros [? ?]; congruence). destruct (Nat.eqb_spec d q) as [-> |Nd].
        -- destruct j as [|j]; [destruct H2|]. exists n, j, (S k), g. rewrite upd2_same, app_length. cbn [length]. split; [exact H1|]. split; [exact H2|]. split; [lia|]. auto.
        -- exists n, j, (S k), g. rewrite upd2_other by (intros [? ?]; congruence). auto.
      * destruct (take u (pc s d p)) as [[m c]|] eqn:Ec; [|discriminate]. pose proof (take_length _ _ _ _ _ Ec) as TL. injection E as <-. cbn [pp pc]. rewrite upd_same, !upd_other by congruence. rewrite (upd2_other _ _ _ p q) by (intros [? ?]; congruence).
        specialize (H2 m). destruct (Nat.eqb_spec d q) as [-> |Nd].
        -- exists n, j, k, g. rewrite upd2_same. rewrite TL in L'. split; [exact H1|]. split; [exact H2|]. split; [exact L|]. split; [exact H3|lia].
        -- exists n, j, (S k), g. rewrite upd2_other by (intros [? ?]; congruence). auto.
    + exists n, j, k, g. destruct (pp s r) as [a|d u m x|d u h]; [discriminate| |destruct (take u (pc s d r)) as [[m c]|]; [|discriminate]]; injection E as <-; cbn [pp pc]; rewrite !upd_other by congruence; rewrite !upd2_other by (intros [? ?]; congruence); auto.
Qed.
