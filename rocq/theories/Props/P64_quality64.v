(** C128: simp_qual in double precision, and what follows for delete_boundary_entities and the linter. *)
From Coq Require Import List ZArith Reals Bool Arith Lia Lra Psatz Sorted.
From Flocq Require Import Core.
From Verif Require Import Model.Base Model.FastHJ Model.SDF Model.Round Model.Simplex Model.Mesh Model.Laplace64 Model.Quality64 Spec.Geom Proofs.ListAux Proofs.GridIndex
  Proofs.SnapProofs Proofs.RoundProofs Proofs.Euclid Proofs.SimplexProofs Proofs.ExportMain Proofs.Quality64Proofs.
Import ListNotations.
Local Open Scope R_scope.

(** ---- triangles whose quality is not tiny ---- *)
Lemma exact_simple x y z a b c : 0 < x -> 0 < y -> 0 < z -> b + c - a = x -> c + a - b = y -> a + b - c = z ->
  exact_quality a b c = x * y * z / (a * b * c).
Proof.
  intros X Y Z EX EY EZ. unfold exact_quality. rewrite EX, EY, EZ. assert (P : 0 < x * y * z) by (repeat apply Rmult_lt_0_compat; assumption).
  assert (S : 0 < a + b + c) by lra. assert (0 < a) by lra. assert (0 < b) by lra. assert (0 < c) by lra. set (s := a + b + c) in *.
  replace (s * x * y * z) with (s * (x * y * z)) by ring. set (h := x * y * z) in *.
  assert (E : sqrt (h / s) * sqrt (s * h) = h).
  { rewrite <- sqrt_mult_alt; [|apply Rlt_le, Rdiv_lt_0_compat; assumption]. replace (h / s * (s * h)) with (h * h) by (field; lra). apply sqrt_square. lra. }
  assert (0 < sqrt (s * h)) by (apply sqrt_lt_R0, Rmult_lt_0_compat; assumption).
  transitivity ((sqrt (h / s) * sqrt (s * h)) / (a * b * c)); [field; repeat split; lra|rewrite E; reflexivity].
Qed.
Lemma gap_bound x y z a b c : 0 < x -> 0 < y -> 0 < z -> b + c - a = x -> c + a - b = y -> a + b - c = z ->
  x * y * z / (a * b * c) / 12 * (a + b + c) <= x.
Proof.
  intros X Y Z EX EY EZ. replace a with ((y + z) / 2) by lra. replace b with ((x + z) / 2) by lra. replace c with ((x + y) / 2) by lra.
  replace (x * y * z / ((y + z) / 2 * ((x + z) / 2) * ((x + y) / 2)) / 12 * ((y + z) / 2 + (x + z) / 2 + (x + y) / 2))
    with (x * ((2 * (y * z) * (x + y + z)) / (3 * ((x + y) * (y + z) * (z + x))))) by (field; lra).
  apply Rle_trans with (x * 1); [|lra]. apply Rmult_le_compat_l; [lra|].
  assert (YZ : 0 < y * z) by (apply Rmult_lt_0_compat; assumption). assert (XY : 0 < x * y) by (apply Rmult_lt_0_compat; assumption). assert (XZ : 0 < x * z) by (apply Rmult_lt_0_compat; assumption).
  assert (D : 0 < 3 * ((x + y) * (y + z) * (z + x))) by (repeat apply Rmult_lt_0_compat; lra).
  apply (Rmult_le_reg_r _ _ _ D). unfold Rdiv. rewrite Rmult_assoc, Rinv_l, Rmult_1_l, Rmult_1_r by lra.
  assert (0 < y * z * x) by (apply Rmult_lt_0_compat; assumption). assert (0 < y * z * y) by (apply Rmult_lt_0_compat; assumption). assert (0 < y * z * z) by (apply Rmult_lt_0_compat; assumption).
  assert (0 < x * y * x) by (apply Rmult_lt_0_compat; assumption). assert (0 < x * z * x) by (apply Rmult_lt_0_compat; assumption).
  assert (0 < x * y * y) by (apply Rmult_lt_0_compat; assumption). assert (0 < x * z * z) by (apply Rmult_lt_0_compat; assumption). lra.
Qed.
(** If the exact quality is at least 2^-36, the computed one is a number and differs by at most 2^-38. *)
Theorem C128_close : forall p q r Q, length p = length q -> length q = length r -> (length r = 2 \/ length r = 3)%nat ->
  (forall v w, In (v, w) [(q, p); (r, p); (r, q)] -> / 2 ^ 100 <= edist v w <= 2 ^ 100) ->
  simp_qual [p; q; r] = Some Q -> / 2 ^ 36 <= Q ->
  exists Q', simp_qual64 [p; q; r] = QNum Q' /\ Rabs (Q' - Q) <= / 2 ^ 38.
Proof.
  intros p q r Q L1 L2 LR SZ HQ QM. pose proof (SZ q p ltac:(cbn; tauto)) as Sa. pose proof (SZ r p ltac:(cbn; tauto)) as Sb. pose proof (SZ r q ltac:(cbn; tauto)) as Sc.
  unfold simp_qual in HQ. cbn [nth] in HQ. rewrite !sub_len_edist in HQ by lia. unfold simp_qual64. cbn [nth].
  pose proof (len64_near q p ltac:(lia) ltac:(lia) (proj1 Sa)) as Na. pose proof (len64_near r p ltac:(lia) ltac:(lia) (proj1 Sb)) as Nb. pose proof (len64_near r q ltac:(lia) ltac:(lia) (proj1 Sc)) as Nc.
  pose proof (triangle q r p ltac:(lia) ltac:(lia)) as Ta. pose proof (triangle r q p ltac:(lia) ltac:(lia)) as Tb. pose proof (triangle r p q ltac:(lia) ltac:(lia)) as Tc.
  rewrite (edist_sym q r) in Ta. rewrite (edist_sym p q) in Tc.
  set (a := edist q p) in *. set (b := edist r p) in *. set (c := edist r q) in *.
  assert (P0 : 0 < / 2 ^ 100) by (apply Rinv_0_lt_compat, pow_lt; lra). assert (Q0 : 0 < / 2 ^ 36) by (apply Rinv_0_lt_compat, pow_lt; lra).
  rewrite (proj2 (Reqb_false a 0)), (proj2 (Reqb_false b 0)), (proj2 (Reqb_false c 0)) in HQ by lra. cbn [orb] in HQ. cbv zeta in HQ.
  destruct (Reqb ((a + b + c) * (b + c - a) * (c + a - b) * (a + b - c)) 0) eqn:H; [injection HQ as <-; lra|]. apply Reqb_false in H.
  assert (EQ : Q = exact_quality a b c) by (injection HQ as <-; reflexivity). clear HQ.
  assert (X : 0 < b + c - a). { destruct (Rle_lt_or_eq_dec 0 (b + c - a) ltac:(lra)) as [|E]; [assumption|]. exfalso. apply H. rewrite <- E. ring. }
  assert (Y : 0 < c + a - b). { destruct (Rle_lt_or_eq_dec 0 (c + a - b) ltac:(lra)) as [|E]; [assumption|]. exfalso. apply H. rewrite <- E. ring. }
  assert (Z : 0 < a + b - c). { destruct (Rle_lt_or_eq_dec 0 (a + b - c) ltac:(lra)) as [|E]; [assumption|]. exfalso. apply H. rewrite <- E. ring. }
  pose proof (exact_simple _ _ _ a b c X Y Z eq_refl eq_refl eq_refl) as ES.
  destruct (quality_near (Q / 12) a b c (len64 q p) (len64 r p) (len64 r q)) as (Q' & E & N); try assumption.
  - apply Rle_trans with (/ 2 ^ 36 / 12); [|lra]. replace (2 ^ 40) with (16 * 2 ^ 36) by (change (2 ^ 40) with (2 * (2 * (2 * (2 * 2 ^ 36)))); ring). rewrite Rinv_mult. lra.
  - intros l [<-|[<-|[<-|[]]]]; assumption.
  - rewrite EQ, ES. intros g [<-|[<-|[<-|[]]]].
    + apply gap_bound with (y := c + a - b) (z := a + b - c); try assumption; reflexivity.
    + pose proof (gap_bound (c + a - b) (a + b - c) (b + c - a) b c a Y Z X eq_refl eq_refl eq_refl) as G.
      replace (b * c * a) with (a * b * c) in G by ring. replace ((c + a - b) * (a + b - c) * (b + c - a)) with ((b + c - a) * (c + a - b) * (a + b - c)) in G by ring.
      replace (b + c + a) with (a + b + c) in G by ring. exact G.
    + pose proof (gap_bound (a + b - c) (b + c - a) (c + a - b) c a b Z X Y eq_refl eq_refl eq_refl) as G.
      replace (c * a * b) with (a * b * c) in G by ring. replace ((a + b - c) * (b + c - a) * (c + a - b)) with ((b + c - a) * (c + a - b) * (a + b - c)) in G by ring.
      replace (c + a + b) with (a + b + c) in G by ring. exact G.
  - exists Q'. split; [exact E|]. rewrite <- EQ in N.
    assert (I : / Q <= 2 ^ 36). { rewrite <- (Rinv_inv (2 ^ 36)). apply Rinv_le_contravar; assumption. } replace (2 ^ 36) with 68719476736 in I by ring.
    assert (QP : 0 < Q) by lra. pose proof (Rinv_0_lt_compat Q QP) as IP.
    assert (W : u / (Q / 12) = 12 * u * / Q) by (field; lra). rewrite W in N.
    apply near_abs in N; [|unfold u; split; [|lra]; apply Rmult_le_pos; [lra|]; apply Rmult_le_pos; lra].
    eapply Rle_trans; [exact N|]. replace (2 * (1024 * (12 * u * / Q)) * Q) with (24576 * u) by (field; lra). unfold u. replace (2 ^ 38) with 274877906944 by ring. lra.
Qed.
Print Assumptions C128_close.

(** ---- concrete roundings ---- *)
Lemma rnd_at x e k : (-1074 <= e)%Z -> bpow radix2 (52 + e) <= x < bpow radix2 (53 + e) -> ZnearestE (x * bpow radix2 (- e)) = k -> rnd64 x = IZR k * bpow radix2 e.
Proof.
  intros E [A B] K. unfold rnd64, round, scaled_mantissa.
  assert (cexp radix2 (FLT_exp (-1074) 53) x = e) as ->.
  { unfold cexp. rewrite (mag_unique_pos radix2 x (53 + e)); [unfold FLT_exp; lia|]. split; [|exact B]. replace (53 + e - 1)%Z with (52 + e)%Z by lia. exact A. }
  rewrite K. reflexivity.
Qed.
Lemma rnd_to x e k y : (-1074 <= e)%Z -> bpow radix2 (52 + e) <= x < bpow radix2 (53 + e) -> Rabs (x * bpow radix2 (- e) - IZR k) < / 2 -> IZR k * bpow radix2 e = y -> rnd64 x = y.
Proof. intros E B N <-. apply rnd_at; [exact E|exact B|]. apply Znearest_imp. exact N. Qed.
Lemma rnd_tie x e z k y : (-1074 <= e)%Z -> bpow radix2 (52 + e) <= x < bpow radix2 (53 + e) -> x * bpow radix2 (- e) = IZR z + / 2 -> k = (if Z.even z then z else z + 1)%Z ->
  IZR k * bpow radix2 e = y -> rnd64 x = y.
Proof.
  intros E B T -> <-. apply rnd_at; [exact E|exact B|]. rewrite T. unfold Znearest. assert (F : Zfloor (IZR z + / 2) = z) by (apply Zfloor_imp; rewrite plus_IZR; lra). rewrite F.
  replace (IZR z + / 2 - IZR z) with (/ 2) by ring. rewrite Rcompare_Eq by reflexivity. destruct (Z.even z); cbn [negb]; [reflexivity|]. apply Zceil_imp. rewrite plus_IZR. replace (z + 1 - 1)%Z with z by lia. lra.
Qed.
Lemma rnd_opp x y : rnd64 x = y -> rnd64 (- x) = - y.
Proof. intros <-. unfold rnd64. apply round_NE_opp. Qed.
Ltac rnd_by e k := apply (rnd_to _ e k); [lia|cbn; lra|cbn; apply Rabs_def1; lra|cbn; lra].
Ltac tie_by e z k := apply (rnd_tie _ e z k); [lia|cbn; lra|cbn; lra|reflexivity|cbn; lra].

(** ---- a triangle of positive area without a quality ---- *)
Definition thin : list (list R) := [[-18014398509481984; 0]; [18014398509481982; 0]; [3 / 2; 1]].
Lemma thin_a : len64 [18014398509481982; 0] [-18014398509481984; 0] = 36028797018963968.
Proof.
  unfold len64, sq64, sum64. cbn [map2 combine map fst snd fold_left].
  replace (rnd64 (18014398509481982 - -18014398509481984)) with 36028797018963968 by (symmetry; tie_by 2%Z 9007199254740991%Z 9007199254740992%Z).
  replace (0 - 0) with 0 by ring. rewrite rnd64_0, Rmult_0_r, rnd64_0, Rplus_0_l, Rplus_0_r, !rnd64_idem.
  replace (rnd64 (36028797018963968 * 36028797018963968)) with (36028797018963968 * 36028797018963968) by (symmetry; rnd_by 58%Z 4503599627370496%Z).
  rewrite sqrt_square by lra. rnd_by 3%Z 4503599627370496%Z.
Qed.
Lemma rnd_small z : (Z.abs z < 2 ^ 53)%Z -> rnd64 (IZR z) = IZR z.
Proof.
  intros H. unfold rnd64. apply round_generic; [typeclasses eauto|]. apply generic_format_FLT. exists (Float radix2 z 0).
  - unfold F2R. cbn [Fnum Fexp]. change (bpow radix2 0) with 1. ring.
  - cbn [Fnum]. change (Zpower radix2 53) with (2 ^ 53)%Z. exact H.
  - cbn [Fexp]. lia.
Qed.
Lemma thin_b : len64 [3 / 2; 1] [-18014398509481984; 0] = 18014398509481984.
Proof.
  unfold len64, sq64, sum64. cbn [map2 combine map fst snd fold_left].
  replace (rnd64 (3 / 2 - -18014398509481984)) with 18014398509481984 by (symmetry; rnd_by 2%Z 4503599627370496%Z).
  replace (1 - 0) with 1 by ring. rewrite (rnd_small 1), Rmult_1_r, (rnd_small 1), Rplus_0_l, rnd64_idem by lia.
  replace (rnd64 (18014398509481984 * 18014398509481984)) with (18014398509481984 * 18014398509481984) by (symmetry; rnd_by 56%Z 4503599627370496%Z).
  replace (rnd64 (18014398509481984 * 18014398509481984 + 1)) with (18014398509481984 * 18014398509481984) by (symmetry; rnd_by 56%Z 4503599627370496%Z).
  rewrite sqrt_square by lra. rnd_by 2%Z 4503599627370496%Z.
Qed.
Lemma thin_c : len64 [3 / 2; 1] [18014398509481982; 0] = 18014398509481980.
Proof.
  unfold len64, sq64, sum64. cbn [map2 combine map fst snd fold_left].
  replace (rnd64 (3 / 2 - 18014398509481982)) with (-18014398509481980).
  2:{ symmetry. replace (3 / 2 - 18014398509481982) with (- (18014398509481982 - 3 / 2)) by ring. apply (rnd_opp _ 18014398509481980). rnd_by 1%Z 9007199254740990%Z. }
  replace (1 - 0) with 1 by ring. rewrite (rnd_small 1), Rmult_1_r, (rnd_small 1), Rplus_0_l, rnd64_idem by lia.
  set (S := 324518553658426582667967944720384).
  replace (rnd64 (-18014398509481980 * -18014398509481980)) with S by (unfold S; symmetry; rnd_by 55%Z 9007199254740988%Z).
  replace (rnd64 (S + 1)) with S by (unfold S; symmetry; rnd_by 55%Z 9007199254740988%Z).
  assert (A : 18014398509481979.5 <= sqrt S). { rewrite <- (sqrt_square 18014398509481979.5) by lra. apply sqrt_le_1_alt. unfold S. lra. }
  assert (B : sqrt S <= 18014398509481980.5). { rewrite <- (sqrt_square 18014398509481980.5) by lra. apply sqrt_le_1_alt. unfold S. lra. }
  rnd_by 1%Z 9007199254740990%Z.
Qed.
Theorem C128_no_quality_refuted : simp_vol thin > 0 /\ (exists q, simp_qual thin = Some q /\ 0 < q) /\ simp_qual64 thin = QNan.
Proof.
  assert (V : simp_vol thin > 0) by (cbn; lra). split; [exact V|]. split.
  { destruct (qual_range (-18014398509481984) 0 18014398509481982 0 (3 / 2) 1) as (q & E & Q & _); [cbn; lra|]. exists q. split; [exact E|lra]. }
  unfold simp_qual64, thin. cbn [nth]. rewrite thin_a, thin_b, thin_c. unfold quality64.
  replace (rnd64 (18014398509481984 + 18014398509481980)) with 36028797018963964 by (symmetry; rnd_by 2%Z 9007199254740991%Z).
  replace (rnd64 (36028797018963964 - 36028797018963968)) with (-4) by (symmetry; replace (36028797018963964 - 36028797018963968) with (-4) by lra; apply (rnd_small (-4)); lia).
  replace (rnd64 (18014398509481980 + 36028797018963968)) with 54043195528445952 by (symmetry; tie_by 3%Z 6755399441055743%Z 6755399441055744%Z).
  replace (rnd64 (54043195528445952 - 18014398509481984)) with 36028797018963968 by (symmetry; rnd_by 3%Z 4503599627370496%Z).
  replace (rnd64 (36028797018963968 + 18014398509481984)) with 54043195528445952 by (symmetry; rnd_by 3%Z 6755399441055744%Z).
  replace (rnd64 (54043195528445952 - 18014398509481980)) with 36028797018963968 by (symmetry; tie_by 3%Z 4503599627370496%Z 4503599627370496%Z).
  replace (rnd64 (54043195528445952 + 18014398509481980)) with 72057594037927936 by (symmetry; tie_by 3%Z 9007199254740991%Z 9007199254740992%Z).
  rewrite (proj2 (Reqb_false 72057594037927936 0)) by lra.
  replace (rnd64 (-4 * 36028797018963968)) with (- 144115188075855872) by (symmetry; replace (-4 * 36028797018963968) with (- (144115188075855872)) by lra; apply (rnd_opp _ 144115188075855872); rnd_by 5%Z 4503599627370496%Z).
  replace (rnd64 (- 144115188075855872 * 36028797018963968)) with (- 5192296858534827628530496329220096).
  2:{ symmetry. replace (- 144115188075855872 * 36028797018963968) with (- (5192296858534827628530496329220096)) by lra. apply (rnd_opp _ 5192296858534827628530496329220096). rnd_by 60%Z 4503599627370496%Z. }
  replace (rnd64 (- 5192296858534827628530496329220096 / 72057594037927936)) with (- 72057594037927936).
  2:{ symmetry. replace (- 5192296858534827628530496329220096 / 72057594037927936) with (- (72057594037927936)) by lra. apply (rnd_opp _ 72057594037927936). rnd_by 4%Z 4503599627370496%Z. }
  rewrite (proj2 (Rltb_true (- 72057594037927936) 0)) by lra. reflexivity.
Qed.
Print Assumptions C128_no_quality_refuted.

(** ---- a triangle whose computed quality exceeds 1 ---- *)
Definition level : list (list R) := [[0; 0]; [6755399441055744; 0]; [3377699720527872; 5850347528665470]].
Lemma level_a : len64 [6755399441055744; 0] [0; 0] = 6755399441055744.
Proof.
  unfold len64, sq64, sum64. cbn [map2 combine map fst snd fold_left]. rewrite !Rminus_0_r, rnd64_0, Rmult_0_r, rnd64_0, Rplus_0_l, Rplus_0_r, !rnd64_idem.
  rewrite (rnd_small 6755399441055744) by lia.
  replace (rnd64 (6755399441055744 * 6755399441055744)) with (6755399441055744 * 6755399441055744) by (symmetry; rnd_by 52%Z 10133099161583616%Z || rnd_by 53%Z 5066549580791808%Z).
  rewrite sqrt_square by lra. apply (rnd_small 6755399441055744). lia.
Qed.
Lemma level_bc x : x = 3377699720527872 \/ x = -3377699720527872 -> rnd64 (sqrt (fold_left (fun s v => rnd64 (s + v)) [rnd64 (rnd64 x * rnd64 x); rnd64 (5850347528665470 * 5850347528665470)] 0)) = 6755399441055743.
Proof.
  intros H. assert (E : rnd64 x = x) by (destruct H as [-> | ->]; [apply (rnd_small 3377699720527872)|apply (rnd_small (-3377699720527872))]; lia). rewrite E.
  replace (x * x) with 11408855402054064613470328848384 by (destruct H as [-> | ->]; lra). cbn [fold_left]. rewrite Rplus_0_l, rnd64_idem.
  replace (rnd64 11408855402054064613470328848384) with 11408855402054064613470328848384 by (symmetry; rnd_by 51%Z 5066549580791808%Z).
  replace (rnd64 (5850347528665470 * 5850347528665470)) with 34226566206162171322412849692672 by (symmetry; rnd_by 52%Z 7599824371187707%Z).
  replace (rnd64 (11408855402054064613470328848384 + 34226566206162171322412849692672)) with 45635421608216240439482805911552.
  2:{ symmetry. first [rnd_by 53%Z 5066549580791806%Z|tie_by 53%Z 5066549580791805%Z 5066549580791806%Z|tie_by 53%Z 5066549580791806%Z 5066549580791806%Z]. }
  set (T := 45635421608216240439482805911552).
  assert (A : 6755399441055742.5 <= sqrt T). { rewrite <- (sqrt_square 6755399441055742.5) by lra. apply sqrt_le_1_alt. unfold T. lra. }
  assert (B : sqrt T <= 6755399441055743.4). { rewrite <- (sqrt_square 6755399441055743.4) by lra. apply sqrt_le_1_alt. unfold T. lra. }
  assert (A' : 6755399441055742.6 <= sqrt T). { rewrite <- (sqrt_square 6755399441055742.6) by lra. apply sqrt_le_1_alt. unfold T. lra. }
  rnd_by 0%Z 6755399441055743%Z.
Qed.

Theorem C128_above_one_refuted : (exists q, simp_qual level = Some q /\ q <= 1) /\ simp_qual64 level = QNum (2251799813685249 / 2251799813685248).
Proof.
  split. { destruct (qual_range 0 0 6755399441055744 0 3377699720527872 5850347528665470) as (q & E & Q & _); [cbn; lra|]. exists q. split; [exact E|lra]. }
  unfold simp_qual64, level. cbn [nth]. rewrite level_a.
  assert (Eb : len64 [3377699720527872; 5850347528665470] [0; 0] = 6755399441055743).
  { unfold len64, sq64, sum64. cbn [map2 combine map fst snd]. rewrite !Rminus_0_r, (rnd_small 5850347528665470) by lia. apply level_bc. left. reflexivity. }
  assert (Ec : len64 [3377699720527872; 5850347528665470] [6755399441055744; 0] = 6755399441055743).
  { unfold len64, sq64, sum64. cbn [map2 combine map fst snd]. rewrite !Rminus_0_r, (rnd_small 5850347528665470) by lia.
    replace (rnd64 (3377699720527872 - 6755399441055744)) with (rnd64 (rnd64 (3377699720527872 - 6755399441055744))) by apply rnd64_idem.
    replace (3377699720527872 - 6755399441055744) with (-3377699720527872) by lra. rewrite (rnd_small (-3377699720527872)) by lia.
    exact (level_bc (-3377699720527872) (or_intror eq_refl)). }
  rewrite Eb, Ec. unfold quality64.
  replace (rnd64 (6755399441055743 + 6755399441055743)) with 13510798882111486 by (symmetry; rnd_by 1%Z 6755399441055743%Z).
  replace (rnd64 (13510798882111486 - 6755399441055744)) with 6755399441055742 by (symmetry; rnd_by 0%Z 6755399441055742%Z).
  replace (rnd64 (6755399441055743 + 6755399441055744)) with 13510798882111488 by (symmetry; tie_by 1%Z 6755399441055743%Z 6755399441055744%Z).
  replace (rnd64 (13510798882111488 - 6755399441055743)) with 6755399441055745 by (symmetry; rnd_by 0%Z 6755399441055745%Z).
  replace (rnd64 (6755399441055744 + 6755399441055743)) with 13510798882111488 by (symmetry; tie_by 1%Z 6755399441055743%Z 6755399441055744%Z).
  replace (rnd64 (13510798882111488 - 6755399441055743)) with 6755399441055745 by (symmetry; rnd_by 0%Z 6755399441055745%Z).
  replace (rnd64 (13510798882111488 + 6755399441055743)) with 20266198323167232 by (symmetry; rnd_by 2%Z 5066549580791808%Z).
  replace (rnd64 (6755399441055742 * 6755399441055745)) with 45635421608216249446682060652544 by (symmetry; rnd_by 53%Z 5066549580791807%Z).
  replace (rnd64 (45635421608216249446682060652544 * 6755399441055745)) with 308285501624487334308589769401090949458673270784 by (symmetry; rnd_by 105%Z 7599824371187712%Z).
  replace (rnd64 (308285501624487334308589769401090949458673270784 / 20266198323167232)) with 15211807202738752817960438464512 by (symmetry; rnd_by 51%Z 6755399441055744%Z).
  replace (rnd64 (20266198323167232 * 6755399441055742)) with 136906264824648739332846927216640 by (symmetry; rnd_by 54%Z 7599824371187710%Z).
  replace (rnd64 (136906264824648739332846927216640 * 6755399441055745)) with 924856504873461840666492478989909456798009524224 by (symmetry; rnd_by 107%Z 5699868278390783%Z).
  replace (rnd64 (924856504873461840666492478989909456798009524224 * 6755399441055745)) with 6247775116078954191307148615022440198606325239827498543651749888 by (symmetry; rnd_by 159%Z 8549802417586176%Z).
  assert (L1 : (195011584288849061 / 50) <= sqrt 15211807202738752817960438464512) by (rewrite <- (sqrt_square (195011584288849061 / 50)) by lra; apply sqrt_le_1_alt; lra).
  assert (U1 : sqrt 15211807202738752817960438464512 <= (390023168577698123 / 100)) by (rewrite <- (sqrt_square (390023168577698123 / 100)) by lra; apply sqrt_le_1_alt; lra).
  replace (rnd64 (sqrt 15211807202738752817960438464512)) with 3900231685776981 by (symmetry; rnd_by (-1)%Z 7800463371553962%Z). clear L1 U1.
  replace (1 / 2 * 3900231685776981) with (1 * 3900231685776981 / 2) by field.
  replace (rnd64 (1 * 3900231685776981 / 2)) with (3900231685776981 / 2) by (symmetry; rnd_by (-2)%Z 7800463371553962%Z).
  assert (L1 : (7904286885025716341903171244775961 / 100) <= sqrt 6247775116078954191307148615022440198606325239827498543651749888) by (rewrite <- (sqrt_square (7904286885025716341903171244775961 / 100)) by lra; apply sqrt_le_1_alt; lra).
  assert (U1 : sqrt 6247775116078954191307148615022440198606325239827498543651749888 <= (3952143442512858170951585622387981 / 50)) by (rewrite <- (sqrt_square (3952143442512858170951585622387981 / 50)) by lra; apply sqrt_le_1_alt; lra).
  replace (rnd64 (sqrt 6247775116078954191307148615022440198606325239827498543651749888)) with 79042868850257165594878160142336 by (symmetry; rnd_by 53%Z 8775521292998208%Z). clear L1 U1.
  replace (rnd64 (6755399441055744 * 6755399441055743)) with 45635421608216249446682060652544 by (symmetry; rnd_by 53%Z 5066549580791807%Z).
  replace (rnd64 (45635421608216249446682060652544 * 6755399441055743)) with 308285501624487212614132147491068405775165554688 by (symmetry; rnd_by 105%Z 7599824371187709%Z).
  replace (rnd64 (308285501624487212614132147491068405775165554688 / 79042868850257165594878160142336)) with (7800463371553959 / 2) by (symmetry; rnd_by (-1)%Z 7800463371553959%Z).
  replace (rnd64 (2 * (3900231685776981 / 2))) with 3900231685776981 by (symmetry; rnd_by (-1)%Z 7800463371553962%Z).
  replace (rnd64 (3900231685776981 / (7800463371553959 / 2))) with (2251799813685249 / 2251799813685248) by (symmetry; rnd_by (-52)%Z 4503599627370498%Z).
  rewrite (proj2 (Reqb_false 20266198323167232 0)) by lra. rewrite (proj2 (Rltb_false 15211807202738752817960438464512 0)) by lra.
  rewrite (proj2 (Rltb_false 6247775116078954191307148615022440198606325239827498543651749888 0)) by lra. cbn [orb].
  rewrite (proj2 (Reqb_false 79042868850257165594878160142336 0)) by lra. rewrite (proj2 (Reqb_false (7800463371553959 / 2) 0)) by lra. reflexivity.
Qed.
Print Assumptions C128_above_one_refuted.

(** ---- triangles of any shape: a computed quality is never much larger than the exact one ---- *)
Theorem C128_not_overrated : forall p q r Q Q', length p = length q -> length q = length r -> (length r = 2 \/ length r = 3)%nat ->
  (forall v w, In (v, w) [(q, p); (r, p); (r, q)] -> / 2 ^ 100 <= edist v w <= 2 ^ 100) ->
  simp_qual [p; q; r] = Some Q -> simp_qual64 [p; q; r] = QNum Q' -> 0 <= Q' <= 3 * Q + / 2 ^ 25.
Proof.
  intros p q r Q Q' L1 L2 LR SZ HQ HQ'. pose proof (SZ q p ltac:(cbn; tauto)) as Sa. pose proof (SZ r p ltac:(cbn; tauto)) as Sb. pose proof (SZ r q ltac:(cbn; tauto)) as Sc.
  unfold simp_qual in HQ. cbn [nth] in HQ. rewrite !sub_len_edist in HQ by lia. unfold simp_qual64 in HQ'. cbn [nth] in HQ'.
  pose proof (len64_near q p ltac:(lia) ltac:(lia) (proj1 Sa)) as Na. pose proof (len64_near r p ltac:(lia) ltac:(lia) (proj1 Sb)) as Nb. pose proof (len64_near r q ltac:(lia) ltac:(lia) (proj1 Sc)) as Nc.
  pose proof (triangle q r p ltac:(lia) ltac:(lia)) as Ta. pose proof (triangle r q p ltac:(lia) ltac:(lia)) as Tb. pose proof (triangle r p q ltac:(lia) ltac:(lia)) as Tc.
  rewrite (edist_sym q r) in Ta. rewrite (edist_sym p q) in Tc.
  set (a := edist q p) in *. set (b := edist r p) in *. set (c := edist r q) in *.
  assert (P0 : 0 < / 2 ^ 100) by (apply Rinv_0_lt_compat, pow_lt; lra).
  split; [apply (quality_nonneg (len64 q p) (len64 r p) (len64 r q) Q'); try (apply rnd64_pos, sqrt_pos); exact HQ'|].
  assert (UB : Q' <= 3 * ((b + c - a) * (c + a - b) * (a + b - c) / (a * b * c)) + / 2 ^ 25).
  { apply (quality_thin a b c (len64 q p) (len64 r p) (len64 r q)); try assumption; try lra; try apply fmt_rnd. intros l [<-|[<-|[<-|[]]]]; assumption. }
  eapply Rle_trans; [exact UB|]. apply Rplus_le_compat_r. apply Rmult_le_compat_l; [lra|]. right.
  rewrite (proj2 (Reqb_false a 0)), (proj2 (Reqb_false b 0)), (proj2 (Reqb_false c 0)) in HQ by lra. cbn [orb] in HQ. cbv zeta in HQ.
  destruct (Reqb ((a + b + c) * (b + c - a) * (c + a - b) * (a + b - c)) 0) eqn:H.
  - apply Reqb_true in H. injection HQ as <-. replace ((b + c - a) * (c + a - b) * (a + b - c)) with ((a + b + c) * (b + c - a) * (c + a - b) * (a + b - c) / (a + b + c)) by (field; lra).
    rewrite H. unfold Rdiv. ring.
  - apply Reqb_false in H. injection HQ as <-. symmetry.
    assert (X : 0 < b + c - a). { destruct (Rle_lt_or_eq_dec 0 (b + c - a) ltac:(lra)) as [|E]; [assumption|]. exfalso. apply H. rewrite <- E. ring. }
    assert (Y : 0 < c + a - b). { destruct (Rle_lt_or_eq_dec 0 (c + a - b) ltac:(lra)) as [|E]; [assumption|]. exfalso. apply H. rewrite <- E. ring. }
    assert (Z : 0 < a + b - c). { destruct (Rle_lt_or_eq_dec 0 (a + b - c) ltac:(lra)) as [|E]; [assumption|]. exfalso. apply H. rewrite <- E. ring. }
    exact (exact_simple _ _ _ a b c X Y Z eq_refl eq_refl eq_refl).
Qed.
Print Assumptions C128_not_overrated.

(** ---- what delete_boundary_entities does with it ---- *)
(** Rows go when they are listed as boundary entities and their computed quality is a number below the minimum; the others stay in order.  NaN stays. *)
Theorem C128_deleted : forall mq p bele t, exists es, kept_rows64 mq p bele t = map (fun e => nth e t []) es /\ StronglySorted lt es /\
  forall e, In e es <-> (e < length t)%nat /\ ~ (In e bele /\ exists q, entity_qual64 p t e = QNum q /\ q < mq).
Proof.
  intros mq p bele t. unfold kept_rows64, kept_rows.
  set (del := filter (fun e => poor mq (as_number (entity_qual64 p t e))) bele). exists (filter (fun e => negb (existsb (Nat.eqb e) del)) (seq 0 (length t))).
  split; [reflexivity|]. split.
  { apply filter_sorted. }
  intros e. rewrite filter_In, in_seq, negb_true_iff. rewrite <- not_true_iff_false, existsb_exists. split.
  - intros [L N]. split; [lia|]. intros [B (q & E & Q)]. apply N. exists e. split; [|apply Nat.eqb_refl]. apply filter_In. split; [exact B|]. rewrite E. cbn. apply Rltb_true, Q.
  - intros [L N]. split; [lia|]. intros (y & Hy & E). apply Nat.eqb_eq in E. subst y. apply filter_In in Hy. destruct Hy as [B P]. apply N. split; [exact B|].
    destruct (entity_qual64 p t e) as [q| |]; cbn in P; try discriminate. exists q. split; [reflexivity|]. apply Rltb_true, P.
Qed.
Print Assumptions C128_deleted.

(** Against the exact quality: a boundary triangle that is better than the minimum by 2^-38 stays, a worse one goes, and a very thin one goes or has no
    quality at all, in which case it stays whatever the minimum is. *)
Definition plane_sized (s : list (list R)) : Prop := exists p q r, s = [p; q; r] /\ length p = 2%nat /\ length q = 2%nat /\ length r = 2%nat /\
  forall v w, In (v, w) [(q, p); (r, p); (r, q)] -> / 2 ^ 100 <= edist v w <= 2 ^ 100.
Theorem C128_decision : forall mq p bele t e Q, / 2 ^ 24 <= mq -> In e bele -> (e < length t)%nat ->
  let s := map (fun v => nth v p []) (nth e t []) in plane_sized s -> simp_qual s = Some Q ->
  exists es, kept_rows64 mq p bele t = map (fun e => nth e t []) es /\
    (mq + / 2 ^ 38 <= Q -> In e es) /\
    (/ 2 ^ 36 <= Q < mq - / 2 ^ 38 -> ~ In e es) /\
    (Q < / 2 ^ 36 -> (In e es <-> ~ exists q, simp_qual64 s = QNum q)).
Proof.
  intros mq p bele t e Q MQ B L s (a & b & c & E & La & Lb & Lc & SZ) HQ. destruct (C128_deleted mq p bele t) as (es & K & _ & D). exists es. split; [exact K|].
  specialize (D e). unfold entity_qual64 in D. fold s in D. rewrite E in D, HQ.
  assert (H38 : 0 < / 2 ^ 38) by (apply Rinv_0_lt_compat, pow_lt; lra).
  pose proof (C128_close a b c Q ltac:(congruence) ltac:(congruence) (or_introl Lc) SZ HQ) as CL.
  replace (2 ^ 38) with 274877906944 in * by ring. replace (2 ^ 36) with 68719476736 in * by ring. replace (2 ^ 24) with 16777216 in * by ring.
  split; [|split].
  - intros G. destruct CL as (Q' & E' & N); [lra|]. apply Rabs_le_inv in N. apply D. split; [exact L|]. intros [_ (q & Eq & Lt)]. rewrite E' in Eq. injection Eq as <-. lra.
  - intros [G1 G2]. destruct CL as (Q' & E' & N); [lra|]. apply Rabs_le_inv in N. intros I. apply D in I. apply (proj2 I). split; [exact B|]. exists Q'. split; [exact E'|lra].
  - intros G. rewrite E. split.
    + intros I (q & Eq). apply D in I. apply (proj2 I). split; [exact B|]. exists q. split; [exact Eq|].
      pose proof (C128_not_overrated a b c Q q ltac:(congruence) ltac:(congruence) (or_introl Lc) SZ HQ Eq) as U. replace (2 ^ 25) with 33554432 in U by ring. lra.
    + intros N. apply D. split; [exact L|]. intros [_ (q & Eq & _)]. apply N. exists q. exact Eq.
Qed.
Print Assumptions C128_decision.

(** The triangle without a quality stays, whatever the minimum: its exact quality is below 2^-36. *)
Theorem C128_thin_stays_refuted : forall mq, kept_rows64 mq thin [0%nat] [[0; 1; 2]%nat] = [[0; 1; 2]%nat] /\ (forall Q, simp_qual thin = Some Q -> Q < / 2 ^ 36).
Proof.
  intros mq. split.
  - unfold kept_rows64, kept_rows. cbn [length seq filter]. replace (entity_qual64 thin [[0; 1; 2]%nat] 0) with QNan by (symmetry; exact (proj2 (proj2 C128_no_quality_refuted))). reflexivity.
  - intros Q HQ. apply Rnot_le_lt. intros G. unfold thin in HQ. destruct (C128_close [-18014398509481984; 0] [18014398509481982; 0] [3 / 2; 1] Q) as (Q' & E & _); try reflexivity; try assumption; [left; reflexivity| |].
    + intros v w H. unfold edist. assert (P : forall d, 1 <= d <= 2 ^ 200 -> / 2 ^ 100 <= sqrt d <= 2 ^ 100).
      { intros d [D1 D2]. split.
        - apply Rle_trans with 1; [rewrite <- Rinv_1; apply Rinv_le_contravar; [lra|apply pow_R1_Rle; lra]|rewrite <- sqrt_1; apply sqrt_le_1_alt, D1].
        - rewrite <- (sqrt_square (2 ^ 100)) by (left; apply pow_lt; lra). apply sqrt_le_1_alt. rewrite <- pow_add. exact D2. }
      replace (2 ^ 200) with 1606938044258990275541962092341162602522202993782792835301376 in P by ring.
      destruct H as [H|[H|[H|[]]]]; injection H as <- <-; apply P; cbn [sqdist]; lra.
    + pose proof (proj2 (proj2 C128_no_quality_refuted)) as N. unfold thin in N. congruence.
Qed.
Print Assumptions C128_thin_stays_refuted.

(** ---- of an overlapping pair the linter removes the worse one, and one without a quality first ---- *)
Theorem C128_worse : forall p1 q1 r1 p2 q2 r2 Q1 Q2,
  (forall p q r, In (p, q, r) [(p1, q1, r1); (p2, q2, r2)] -> length p = 2%nat /\ length q = 2%nat /\ length r = 2%nat /\
     forall v w, In (v, w) [(q, p); (r, p); (r, q)] -> / 2 ^ 100 <= edist v w <= 2 ^ 100) ->
  simp_qual [p1; q1; r1] = Some Q1 -> simp_qual [p2; q2; r2] = Some Q2 -> / 2 ^ 22 <= Q1 -> Q2 < Q1 / 4 ->
  worse64 (simp_qual64 [p1; q1; r1]) (simp_qual64 [p2; q2; r2]) = 1%nat.
Proof.
  intros p1 q1 r1 p2 q2 r2 Q1 Q2 HG H1 H2 G1 G2.
  destruct (HG p1 q1 r1 ltac:(cbn; tauto)) as (A1 & A2 & A3 & S1). destruct (HG p2 q2 r2 ltac:(cbn; tauto)) as (B1 & B2 & B3 & S2).
  pose proof (C128_close p1 q1 r1 Q1 ltac:(congruence) ltac:(congruence) (or_introl A3) S1 H1) as C1. pose proof (C128_close p2 q2 r2 Q2 ltac:(congruence) ltac:(congruence) (or_introl B3) S2 H2) as C2.
  pose proof (C128_not_overrated p2 q2 r2 Q2) as N2. specialize (fun Q' => N2 Q' ltac:(congruence) ltac:(congruence) (or_introl B3) S2 H2).
  replace (2 ^ 38) with 274877906944 in * by ring. replace (2 ^ 36) with 68719476736 in * by ring. replace (2 ^ 22) with 4194304 in * by ring. replace (2 ^ 25) with 33554432 in * by ring.
  destruct C1 as (Q1' & E1 & D1); [lra|]. rewrite E1. apply Rabs_le_inv in D1.
  destruct (simp_qual64 [p2; q2; r2]) as [x| |] eqn:E2; cbn [worse64].
  - specialize (N2 x eq_refl). assert (x < Q1'); [|rewrite (proj2 (Rltb_true x Q1')) by assumption; reflexivity].
    lra.
  - exfalso. revert E2. unfold simp_qual64. cbn [nth]. apply (not_inf (edist q2 p2) (edist r2 p2) (edist r2 q2)).
    + intros l [<-|[<-|[<-|[]]]]; apply S2; cbn; tauto.
    + apply len64_near; [congruence|left; exact B1|apply S2; cbn; tauto].
    + apply len64_near; [congruence|left; exact B1|apply S2; cbn; tauto].
    + apply len64_near; [congruence|left; exact B2|apply S2; cbn; tauto].
  - reflexivity.
Qed.
Print Assumptions C128_worse.

(** A triangle without a quality is removed before any other that has one, so for instance before a triangle that is really worse. *)
Theorem C128_no_quality_goes_first : forall s s', simp_qual64 s = QNan ->
  worse64 (simp_qual64 s) (simp_qual64 s') = 0%nat /\ (simp_qual64 s' <> QNan -> worse64 (simp_qual64 s') (simp_qual64 s) = 1%nat).
Proof. intros s s' ->. split; [reflexivity|]. destruct (simp_qual64 s'); intros N; try reflexivity. destruct N; reflexivity. Qed.
Print Assumptions C128_no_quality_goes_first.

(** The 3-4-5 triangle meets the hypotheses of C128_close, C128_decision and C128_worse: its quality is 4/5. *)
Definition right345 : list (list R) := [[0; 0]; [4; 0]; [4; 3]].
Lemma edist345 : edist [4; 0] [0; 0] = 4 /\ edist [4; 3] [0; 0] = 5 /\ edist [4; 3] [4; 0] = 3.
Proof.
  unfold edist; cbn [sqdist]. repeat split.
  - replace ((4 - 0) ^ 2 + ((0 - 0) ^ 2 + 0)) with (4 * 4) by ring. apply sqrt_square. lra.
  - replace ((4 - 0) ^ 2 + ((3 - 0) ^ 2 + 0)) with (5 * 5) by ring. apply sqrt_square. lra.
  - replace ((4 - 4) ^ 2 + ((3 - 0) ^ 2 + 0)) with (3 * 3) by ring. apply sqrt_square. lra.
Qed.
Lemma sized345 v w : In (v, w) [([4; 0], [0; 0]); ([4; 3], [0; 0]); ([4; 3], [4; 0])] -> / 2 ^ 100 <= edist v w <= 2 ^ 100.
Proof.
  destruct edist345 as (E1 & E2 & E3). assert (P : forall d, 1 <= d <= 2 ^ 3 -> / 2 ^ 100 <= d <= 2 ^ 100).
  { intros d [D1 D2]. split.
    - apply Rle_trans with 1; [rewrite <- Rinv_1; apply Rinv_le_contravar; [lra|apply pow_R1_Rle; lra]|exact D1].
    - apply Rle_trans with (2 ^ 3); [exact D2|apply Rle_pow; [lra|lia]]. }
  intros [H|[H|[H|[]]]]; injection H as <- <-; apply P; [rewrite E1|rewrite E2|rewrite E3]; lra.
Qed.
Example C128_case : plane_sized right345 /\ simp_qual right345 = Some (4 / 5) /\ exists Q', simp_qual64 right345 = QNum Q' /\ Rabs (Q' - 4 / 5) <= / 2 ^ 38.
Proof.
  assert (E : simp_qual right345 = Some (4 / 5)).
  { destruct edist345 as (E1 & E2 & E3). unfold simp_qual, right345. cbn [nth]. rewrite !sub_len_edist by reflexivity. rewrite E1, E2, E3.
    rewrite (proj2 (Reqb_false 4 0)), (proj2 (Reqb_false 5 0)), (proj2 (Reqb_false 3 0)) by lra. cbn [orb]. cbv zeta.
    rewrite (proj2 (Reqb_false _ 0)) by lra. change (Some (exact_quality 4 5 3) = Some (4 / 5)). rewrite (exact_simple 4 2 6) by lra. f_equal. field. }
  split; [|split; [exact E|]].
  - exists [0; 0], [4; 0], [4; 3]. split; [reflexivity|]. repeat split; try reflexivity; apply sized345; assumption.
  - apply (C128_close [0; 0] [4; 0] [4; 3] (4 / 5)); [reflexivity|reflexivity|left; reflexivity|exact sized345|exact E|].
    apply Rle_trans with (/ 2 ^ 1); [apply Rinv_le_contravar; [lra|apply Rle_pow; [lra|lia]]|lra].
Qed.
