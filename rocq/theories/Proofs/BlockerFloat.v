(** binary64 rounding of the few numbers of the counterexample *)
From Coq Require Import List ZArith Reals Bool Arith Lia Lra.
From Flocq Require Import Core.
From Verif Require Import Model.Base Model.Blocker Proofs.ListAux Proofs.MeshAux Proofs.WhereToProofs Proofs.BlockerProofs.
Import ListNotations.
Local Open Scope R_scope.

Definition rne : R -> R := round radix2 (FLT_exp (-1074) 53) ZnearestE.
Lemma eps_bpow : eps = bpow radix2 (-52).
Proof. unfold eps. change (bpow radix2 (-52)) with (/ IZR (Zpower_pos 2 52)). f_equal. rewrite (pow_IZR 2 52). reflexivity. Qed.
Lemma eps_val : eps = / IZR 4503599627370496.
Proof. rewrite eps_bpow. reflexivity. Qed.

Lemma rne_exact x m e : x = F2R (Float radix2 m e) -> (Z.abs m < 2 ^ 53)%Z -> (-1074 <= e)%Z -> rne x = x.
Proof.
  intros E M X. apply round_generic; [apply valid_rnd_N|]. rewrite E. apply generic_format_FLT. exists (Float radix2 m e); [reflexivity|exact M|exact X].
Qed.
(** halfway between two neighbours, even one below *)
Lemma rne_tie x m e mg : bpow radix2 (mg - 1) <= x < bpow radix2 mg -> (mg - 53 = e)%Z -> (-1074 <= e)%Z -> x = (IZR m + /2) * bpow radix2 e -> Z.even m = true -> rne x = IZR m * bpow radix2 e.
Proof.
  intros B Ee E X EV. unfold rne, round, scaled_mantissa, cexp.
  assert (0 < x) as P by (pose proof (bpow_gt_0 radix2 (mg - 1)); lra).
  rewrite (mag_unique_pos radix2 x mg B). unfold FLT_exp. rewrite Ee, Z.max_l by lia.
  assert (x * bpow radix2 (- e) = IZR m + /2) as S.
  { rewrite X, Rmult_assoc, <- bpow_plus. replace (e + - e)%Z with 0%Z by lia. cbn [bpow]. lra. }
  rewrite S. unfold F2R. cbn [Fnum Fexp]. f_equal. f_equal.
  unfold Znearest. rewrite (Zfloor_imp m) by (rewrite plus_IZR; lra). replace (IZR m + / 2 - IZR m) with (/2) by lra. rewrite Rcompare_Eq by reflexivity. rewrite EV. reflexivity.
Qed.
Lemma r1 : rne (-1 - eps) = -1 - eps.
Proof. apply (rne_exact _ (-4503599627370497) (-52)); [|lia|lia]. unfold F2R. cbn [Fnum Fexp]. rewrite <- eps_bpow, eps_val. lra. Qed.
Lemma r2 : rne (2 + eps) = 2.
Proof.
  assert (bpow radix2 (-51) = 2 * eps) as B by (rewrite eps_bpow; change (-51)%Z with (1 + -52)%Z; rewrite bpow_plus; reflexivity). pose proof eps_val as EV.
  rewrite (rne_tie _ 4503599627370496 (-51) 2); [rewrite B, EV; lra| |lia|lia| |reflexivity].
  - change (bpow radix2 (2 - 1)) with 2. change (bpow radix2 2) with 4. rewrite EV. lra.
  - rewrite B, EV. lra.
Qed.
Lemma r3 : rne (2 - (-1 - eps)) = 3.
Proof.
  assert (bpow radix2 (-51) = 2 * eps) as B by (rewrite eps_bpow; change (-51)%Z with (1 + -52)%Z; rewrite bpow_plus; reflexivity). pose proof eps_val as EV.
  rewrite (rne_tie _ 6755399441055744 (-51) 2); [rewrite B, EV; lra| |lia|lia| |reflexivity].
  - change (bpow radix2 (2 - 1)) with 2. change (bpow radix2 2) with 4. rewrite EV. lra.
  - rewrite B, EV. lra.
Qed.
Lemma r4 : rne 3 = 3.
Proof. apply (rne_exact _ 3 0); [|lia|lia]. unfold F2R. cbn. lra. Qed.
Lemma r5 : rne 0 = 0.
Proof. apply (rne_exact _ 0 0); [|lia|lia]. unfold F2R. cbn. lra. Qed.
Lemma r6 : rne (-1 - eps + 3) = 2 - eps.
Proof. replace (-1 - eps + 3) with (2 - eps) by lra. apply (rne_exact _ 9007199254740991 (-52)); [|lia|lia]. unfold F2R. cbn [Fnum Fexp]. rewrite <- eps_bpow, eps_val. lra. Qed.

Lemma first_lims points : min_list (column 0 points) = -1 -> max_list (column 0 points) = 2 -> lims rne points 0 = (-1 - eps, 2).
Proof. intros A B. unfold lims. rewrite A, B, r1, r2. reflexivity. Qed.
Lemma first_step : step_of rne (-1 - eps, 2) 1 = 3.
Proof. unfold step_of. cbn [fst snd INR]. rewrite r3. replace (3 / 1) with 3 by lra. apply r4. Qed.
Lemma first_linspace : linspace rne (-1 - eps, 2) 1 = [-1 - eps].
Proof. unfold linspace. cbn [seq map fst INR]. rewrite first_step, Rmult_0_l, r5, Rplus_0_l, r1. reflexivity. Qed.
Theorem loses : forall points nb blocks extents,
  min_list (column 0 points) = -1 -> max_list (column 0 points) = 2 -> blocker rne 2 points nb 0 = Ok (blocks, extents) ->
  forall b p, In b blocks -> In p b -> nth 0 p 0 <> 2.
Proof.
  intros points nb blocks extents A B E b p Hb Hp. unfold blocker in E. change ((2 <? 2)%nat || (3 <? 2)%nat) with false in E. cbv iota in E. destruct (nb =? 0)%nat; [discriminate|].
  destruct (negb (1 <? length points / nb)%nat); [discriminate|]. cbn [divisions seq map nth lows] in E. injection E as <- _. apply filter_In in Hb. destruct Hb as [Hb _].
  rewrite (first_lims points A B), first_step, A, r1, Rmult_0_l, r5, Rplus_0_l, r1 in Hb. apply in_map_iff in Hb. destruct Hb as (low & <- & Hl). apply in_flat_map in Hl. destruct Hl as (y & _ & Hl). cbn [map In] in Hl. destruct Hl as [<-|[]].
  apply filter_In in Hp. destruct Hp as [Hp T]. destruct p as [|x p]; [cbn; lra|]. cbn [in_block] in T. rewrite !andb_true_iff in T. destruct T as [[_ T] _].
  rewrite r6, Rleb_true in T. cbn [nth]. pose proof eps_pos. lra.
Qed.
