From Coq Require Import List ZArith Reals Bool Arith Lia Lra Sorted.
From Verif Require Import Model.Base Model.Blocker Proofs.ListAux Proofs.MeshAux Proofs.WhereToProofs Proofs.ExportMain.
Import ListNotations.
Local Open Scope R_scope.

Lemma eps_pos : 0 < eps. Proof. unfold eps. apply Rinv_0_lt_compat. apply pow_lt. lra. Qed.
Notation ex := (fun x : R => x).

Definition split_coord (axis : nat) : nat := match axis with O => 1%nat | _ => 0%nat end.
Lemma col_min k points p : In p points -> min_list (column k points) <= nth k p 0.
Proof. intros H. apply min_list_le; [destruct points; [destruct H|discriminate]|]. exists (nth k p 0). split; [apply (in_map (fun p => nth k p 0)), H|lra]. Qed.
Lemma col_max k points p : In p points -> nth k p 0 <= max_list (column k points).
Proof. intros H. apply max_list_ge; [destruct points; [destruct H|discriminate]|]. exists (nth k p 0). split; [apply (in_map (fun p => nth k p 0)), H|lra]. Qed.
Lemma col_min_at k points : points <> [] -> exists p, In p points /\ nth k p 0 = min_list (column k points).
Proof.
  intros NE. destruct (proj1 (min_list_le (column k points) (min_list (column k points)) ltac:(apply map_ne, NE)) (Rle_refl _)) as (y & I & L).
  apply in_map_iff in I. destruct I as (p & <- & I). exists p. split; [exact I|]. apply Rle_antisym; [exact L|apply col_min, I].
Qed.
Lemma col_max_at k points : points <> [] -> exists p, In p points /\ nth k p 0 = max_list (column k points).
Proof.
  intros NE. destruct (proj1 (max_list_ge (column k points) (max_list (column k points)) ltac:(apply map_ne, NE)) (Rle_refl _)) as (y & I & L).
  apply in_map_iff in I. destruct I as (p & <- & I). exists p. split; [exact I|]. apply Rle_antisym; [apply col_max, I|exact L].
Qed.

(** the slab number k of nb along coordinate s *)
Definition slab_lo (points : list (list R)) (s nb k : nat) : R :=
  let lo := min_list (column s points) - eps in let hi := max_list (column s points) + eps in lo + INR k * ((hi - lo) / INR nb).
Definition in_slab points s nb k (p : list R) : bool := Rleb (slab_lo points s nb k) (nth s p 0) && Rleb (nth s p 0) (slab_lo points s nb (S k)).
Definition slab points s nb k := filter (in_slab points s nb k) points.

Lemma whole points k p : In p points -> Rgeb (nth k p 0) (min_list (column k points) - eps) = true /\
  Rleb (nth k p 0) ((min_list (column k points) - eps) + (max_list (column k points) + eps - (min_list (column k points) - eps)) / INR 1) = true.
Proof.
  intros H. pose proof eps_pos. pose proof (col_min k points p H). pose proof (col_max k points p H). unfold Rgeb. rewrite !Rleb_true. cbn [INR]. split; [lra|].
  unfold Rdiv. rewrite Rinv_1. lra.
Qed.
Lemma Rleb_ext a b c d : (a <= b <-> c <= d) -> Rleb a b = Rleb c d.
Proof. intros H. unfold Rleb. destruct (Rle_dec a b), (Rle_dec c d); tauto. Qed.
Lemma flat_single {A B} (g : A -> B) l : flat_map (fun y => [g y]) l = map g l.
Proof. induction l; cbn; congruence. Qed.

(** the interval test of block i along the split coordinate, and along an uncut one *)
Lemma test_split points s nb i p : (0 < nb)%nat ->
  Rgeb (nth s p 0) (INR i * step_of ex (lims ex points s) nb + fst (lims ex points s)) &&
  Rleb (nth s p 0) (INR i * step_of ex (lims ex points s) nb + fst (lims ex points s) + step_of ex (lims ex points s) nb) = in_slab points s nb i p.
Proof.
  intros H. unfold in_slab, Rgeb, slab_lo, step_of, lims. cbn [fst snd]. f_equal; apply Rleb_ext; rewrite ?S_INR; split; lra.
Qed.
Lemma test_whole points k p : In p points ->
  Rgeb (nth k p 0) (INR 0 * step_of ex (lims ex points k) 1 + fst (lims ex points k)) &&
  Rleb (nth k p 0) (INR 0 * step_of ex (lims ex points k) 1 + fst (lims ex points k) + step_of ex (lims ex points k) 1) = true.
Proof.
  intros H. destruct (whole points k p H) as [A B]. unfold Rgeb, step_of, lims in *. cbn [fst snd INR] in *. rewrite Rleb_true in A, B. rewrite andb_true_iff, !Rleb_true. lra.
Qed.

Theorem blocker_slabs dim points nb axis : (dim = 2 \/ dim = 3)%nat -> (axis = 0 \/ axis = 1)%nat -> (0 < nb)%nat -> (1 < length points / nb)%nat ->
  Forall (fun p => length p = dim) points ->
  let B := filter (fun b => negb (length b =? 0)%nat) (map (slab points (split_coord axis) nb) (seq 0 nb)) in
  blocker ex dim points nb axis = Ok (B, map (extent dim) B).
Proof.
  intros D A N C F B. unfold blocker.
  assert (((dim <? 2) || (3 <? dim))%nat = false) as -> by (destruct D as [-> | ->]; reflexivity).
  destruct (Nat.eqb_spec nb 0); [lia|]. apply Nat.ltb_lt in C. rewrite C. cbn [negb].
  rewrite Forall_forall in F.
  assert (forall (f g : list (list (list R))), f = g -> Ok (filter (fun b => negb (length b =? 0)%nat) f, map (extent dim) (filter (fun b => negb (length b =? 0)%nat) f)) = Ok (filter (fun b => negb (length b =? 0)%nat) g, map (extent dim) (filter (fun b => negb (length b =? 0)%nat) g))) as G by (intros f g ->; reflexivity).
  destruct D as [-> | ->], A as [-> | ->]; cbn [divisions split_coord seq map nth lows]; unfold B; apply G; clear G B; unfold linspace; cbn [seq map].
  - rewrite (flat_single (fun y => [_; y])), !map_map. apply map_ext. intros i. apply filter_ext_in. intros p Hp. pose proof (F p Hp) as L.
    destruct p as [|x [|y [|]]]; try discriminate. cbn [in_block]. pose proof (test_whole points 0 _ Hp) as T. pose proof (test_split points 1 nb i [x; y] N) as T2. cbn [nth] in T, T2.
    rewrite T, T2. apply andb_true_r.
  - cbn [flat_map]. rewrite app_nil_r, !map_map. apply map_ext. intros i. apply filter_ext_in. intros p Hp. pose proof (F p Hp) as L.
    destruct p as [|x [|y [|]]]; try discriminate. cbn [in_block]. pose proof (test_whole points 1 _ Hp) as T. pose proof (test_split points 0 nb i [x; y] N) as T2. cbn [nth] in T, T2.
    rewrite T, T2. apply andb_true_r.
  - cbn [flat_map map app]. rewrite (flat_single (fun y => [_; y; _])), !map_map. apply map_ext. intros i. apply filter_ext_in. intros p Hp. pose proof (F p Hp) as L.
    destruct p as [|x [|y [|z [|]]]]; try discriminate. cbn [in_block]. pose proof (test_whole points 0 _ Hp) as T. pose proof (test_whole points 2 _ Hp) as T3. pose proof (test_split points 1 nb i [x; y; z] N) as T2. cbn [nth] in T, T2, T3.
    rewrite T, T2, T3. cbn. rewrite !andb_true_r. reflexivity.
  - cbn [flat_map map app]. rewrite app_nil_r. rewrite (flat_single (fun x => [x; _; _])), !map_map. apply map_ext. intros i. apply filter_ext_in. intros p Hp. pose proof (F p Hp) as L.
    destruct p as [|x [|y [|z [|]]]]; try discriminate. cbn [in_block]. pose proof (test_whole points 1 _ Hp) as T. pose proof (test_whole points 2 _ Hp) as T3. pose proof (test_split points 0 nb i [x; y; z] N) as T2. cbn [nth] in T, T2, T3.
    rewrite T, T2, T3. rewrite !andb_true_r. reflexivity.
Qed.

(** slabs cover *)
Lemma slab_ends points s nb p : (0 < nb)%nat -> In p points -> slab_lo points s nb 0 < nth s p 0 < slab_lo points s nb nb.
Proof.
  intros N H. pose proof eps_pos. pose proof (col_min s points p H). pose proof (col_max s points p H). unfold slab_lo. cbn [INR].
  assert (INR nb <> 0) by (apply not_0_INR; lia). replace (INR nb * ((max_list (column s points) + eps - (min_list (column s points) - eps)) / INR nb)) with (max_list (column s points) + eps - (min_list (column s points) - eps)) by (field; assumption). lra.
Qed.
Lemma slab_width points s nb : (0 < nb)%nat -> points <> [] -> exists w, 0 < w /\ forall k, slab_lo points s nb k = slab_lo points s nb 0 + INR k * w.
Proof.
  intros N NE. destruct points as [|p t] eqn:E; [congruence|]. rewrite <- E. assert (In p points) as H by (rewrite E; left; reflexivity). pose proof eps_pos. pose proof (col_min s points p H). pose proof (col_max s points p H).
  exists ((max_list (column s points) + eps - (min_list (column s points) - eps)) / INR nb). split.
  - apply Rdiv_lt_0_compat; [lra|apply lt_0_INR; lia].
  - intros k. unfold slab_lo. cbn [INR]. lra.
Qed.
Lemma find_slab (f : nat -> R) x m : f 0%nat <= x -> x <= f m -> (0 < m)%nat -> exists k, (k < m)%nat /\ f k <= x <= f (S k).
Proof.
  induction m as [|m IH]; intros A B M; [lia|]. destruct (Rle_dec x (f m)) as [L|L].
  - destruct m as [|m]; [exists 0%nat; split; [lia|lra]|]. destruct (IH A L ltac:(lia)) as (k & Hk & H). exists k. split; [lia|exact H].
  - exists m. split; [lia|lra].
Qed.
Lemma in_some_slab points s nb p : (0 < nb)%nat -> In p points -> exists k, (k < nb)%nat /\ In p (slab points s nb k).
Proof.
  intros N H. destruct (slab_ends points s nb p N H) as [A B]. destruct (find_slab (slab_lo points s nb) (nth s p 0) nb) as (k & Hk & L); [lra|lra|exact N|].
  exists k. split; [exact Hk|]. apply filter_In. split; [exact H|]. unfold in_slab. rewrite andb_true_iff, !Rleb_true. exact L.
Qed.
Lemma in_slab_spec points s nb k p : In p (slab points s nb k) <-> In p points /\ slab_lo points s nb k <= nth s p 0 <= slab_lo points s nb (S k).
Proof. unfold slab. rewrite filter_In. unfold in_slab. rewrite andb_true_iff, !Rleb_true. tauto. Qed.
Lemma two_slabs points s nb p j k : (0 < nb)%nat -> In p (slab points s nb j) -> In p (slab points s nb k) -> (j < k)%nat -> k = S j /\ nth s p 0 = slab_lo points s nb k.
Proof.
  intros N J K L. apply in_slab_spec in J. apply in_slab_spec in K. destruct J as [I J]. destruct K as [_ K].
  destruct (slab_width points s nb N ltac:(destruct points; [destruct I|discriminate])) as (w & W & E). rewrite !(E (S _)), (E j), (E k) in *.
  rewrite S_INR in *. assert (INR k < INR j + 2) as LT by nra. assert (k = S j) as ->. { rewrite <- (S_INR j) in *. apply lt_INR in L. assert (INR k < INR (S (S j))) as Q by (rewrite !S_INR; lra). apply INR_lt in Q. apply INR_lt in L. lia. }
  split; [reflexivity|]. rewrite S_INR in *. lra.
Qed.
Lemma slabs_ordered points s nb p q j k : (0 < nb)%nat -> In p (slab points s nb j) -> In q (slab points s nb k) -> (j < k)%nat -> nth s p 0 <= nth s q 0.
Proof.
  intros N J K L. apply in_slab_spec in J. apply in_slab_spec in K. destruct J as [I J]. destruct K as [_ K].
  destruct (slab_width points s nb N ltac:(destruct points; [destruct I|discriminate])) as (w & W & E). rewrite !(E (S _)), (E j), (E k) in *. apply le_INR in L. nra.
Qed.
(** the non-empty ones among them *)
Lemma nonempty_slabs (f : nat -> list (list R)) nb : exists ks, filter (fun b => negb (length b =? 0)%nat) (map f (seq 0 nb)) = map f ks /\ StronglySorted lt ks /\
  forall k, In k ks <-> (k < nb)%nat /\ f k <> [].
Proof.
  exists (filter (fun k => negb (length (f k) =? 0)%nat) (seq 0 nb)). split; [|split].
  - induction (seq 0 nb) as [|a l IH]; [reflexivity|]. cbn [map filter]. destruct (negb (length (f a) =? 0)%nat); cbn [map]; rewrite IH; reflexivity.
  - apply filter_sorted.
  - intros k. rewrite filter_In, in_seq. destruct (f k); cbn; intuition (try lia; try congruence).
Qed.

(** axis 2: the blocks of the lowest y come first and are the slabs along z *)
Lemma axis2_prefix points nb : (0 < nb)%nat -> (1 < length points / nb)%nat -> Forall (fun p => length p = 3%nat) points ->
  exists rest e, blocker ex 3 points nb 2 = Ok (filter (fun b => negb (length b =? 0)%nat) (map (slab points 2 nb) (seq 0 nb)) ++ rest, e) /\
   forall b p, In b rest -> In p b -> In p points.
Proof.
  intros N C F. unfold blocker. change ((3 <? 2)%nat || (3 <? 3)%nat) with false. cbv iota. destruct (Nat.eqb_spec nb 0); [lia|]. apply Nat.ltb_lt in C. rewrite C. cbn [negb divisions].
  rewrite Forall_forall in F. cbn [seq map nth lows]. destruct nb as [|m]; [lia|].
  change (linspace ex (lims ex points 1) (S m)) with ((INR 0 * step_of ex (lims ex points 1) (S m) + fst (lims ex points 1)) :: map (fun i => INR i * step_of ex (lims ex points 1) (S m) + fst (lims ex points 1)) (seq 1 m)).
  change (linspace ex (lims ex points 0) 1) with [INR 0 * step_of ex (lims ex points 0) 1 + fst (lims ex points 0)].
  set (ys := map (fun i => INR i * step_of ex (lims ex points 1) (S m) + fst (lims ex points 1)) (seq 1 m)).
  cbn [flat_map]. rewrite map_app, filter_app, app_nil_r.
  match goal with |- context [Ok (filter ?f ?A ++ filter ?f ?B, ?E)] => assert (A = map (slab points 2 (S m)) (seq 0 (S m))) as HA; [|exists (filter f B), E] end.
  - unfold linspace. rewrite !map_map. apply map_ext. intros i. apply filter_ext_in. intros p Hp. pose proof (F p Hp) as L.
    destruct p as [|x [|y [|z [|]]]]; try discriminate. cbn [in_block].
    pose proof (test_whole points 0 _ Hp) as T. pose proof (whole points 1 _ Hp) as [T1 T1']. pose proof (test_split points 2 (S m) i [x; y; z] N) as T2. cbn [nth] in T, T1, T1', T2.
    rewrite T, T2. change (INR 0) with 0. rewrite Rmult_0_l, Rplus_0_l. unfold step_of, lims. cbn [fst snd]. rewrite T1, T1'. cbn [andb]. rewrite !andb_true_r. reflexivity.
  - split; [rewrite <- HA; reflexivity|]. intros b p Hb Hp. apply filter_In in Hb. destruct Hb as [Hb _]. apply in_map_iff in Hb. destruct Hb as (low & <- & _). apply filter_In in Hp. apply Hp.
Qed.
