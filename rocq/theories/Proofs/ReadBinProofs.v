(** C17: layout of binary velocity files. *)
From Coq Require Import List Arith Lia Bool.
From Verif Require Import Model.Base Model.ReadBin.
Import ListNotations.

Lemma perm3_cases ao : is_perm3 ao = true ->
  In ao [[0;1;2]; [0;2;1]; [1;0;2]; [1;2;0]; [2;0;1]; [2;1;0]].
Proof.
  unfold is_perm3. rewrite !andb_true_iff, Nat.eqb_eq. intros [[[HL H0] H1] H2].
  destruct ao as [|a [|b [|c [|? ?]]]]; try discriminate HL.
  cbn [existsb] in H0, H1, H2. rewrite !orb_true_iff in H0, H1, H2.
  repeat match goal with H : _ \/ _ |- _ => destruct H end; try discriminate;
  repeat match goal with H : (_ =? _) = true |- _ => apply Nat.eqb_eq in H; subst end;
  try discriminate; cbn; auto 10.
Qed.

Lemma offset_range o m0 m1 m2 a b c : a < m0 -> b < m1 -> c < m2 -> offset o m0 m1 m2 a b c < m0 * m1 * m2.
Proof.
  intros Ha Hb Hc. destruct o; cbn.
  - assert (b + m1 * c + 1 <= m1 * m2) by nia. nia.
  - assert (a * m1 + b + 1 <= m0 * m1) by nia. nia.
Qed.

Lemma divmod_unique m a q a' q' : a < m -> a' < m -> a + m * q = a' + m * q' -> a = a' /\ q = q'.
Proof.
  intros H H' E. assert (q = q') by (destruct (Nat.lt_trichotomy q q') as [L|[L|L]]; [nia|exact L|nia]).
  subst. lia.
Qed.

Lemma offset_inj o m0 m1 m2 a b c a' b' c' :
  a < m0 -> b < m1 -> c < m2 -> a' < m0 -> b' < m1 -> c' < m2 ->
  offset o m0 m1 m2 a b c = offset o m0 m1 m2 a' b' c' -> a = a' /\ b = b' /\ c = c'.
Proof.
  intros Ha Hb Hc Ha' Hb' Hc' E. destruct o; cbn in E.
  - apply divmod_unique in E; [|assumption..]. destruct E as [-> E]. apply divmod_unique in E; tauto.
  - assert (E1 : c + m2 * (a * m1 + b) = c' + m2 * (a' * m1 + b')) by nia.
    apply divmod_unique in E1; [|assumption..]. destruct E1 as [-> E1].
    assert (E2 : b + m1 * a = b' + m1 * a') by nia. apply divmod_unique in E2; tauto.
Qed.

Lemma divmod_ex m n q : q < m * n -> exists a c, a < m /\ c < n /\ q = a + m * c.
Proof.
  intros H. assert (Hm : m <> 0) by (intros ->; lia).
  exists (q mod m), (q / m). split; [apply Nat.mod_upper_bound; exact Hm|]. split.
  - apply Nat.div_lt_upper_bound; [exact Hm|exact H].
  - pose proof (Nat.div_mod q m Hm). lia.
Qed.

Lemma offset_surj o m0 m1 m2 q : q < m0 * m1 * m2 ->
  exists a b c, a < m0 /\ b < m1 /\ c < m2 /\ q = offset o m0 m1 m2 a b c.
Proof.
  intros H. destruct o; cbn.
  - destruct (divmod_ex m0 (m1 * m2) q ltac:(nia)) as (a & r & Ha & Hr & ->).
    destruct (divmod_ex m1 m2 r Hr) as (b & c & Hb & Hc & ->). exists a, b, c. auto.
  - destruct (divmod_ex m2 (m0 * m1) q ltac:(nia)) as (c & r & Hc & Hr & ->).
    destruct (divmod_ex m1 m0 r ltac:(nia)) as (b & a & Hb & Ha & ->). exists a, b, c. repeat split; auto. nia.
Qed.

Lemma result_shape_perm ao nz nx ny : is_perm3 ao = true -> result_shape ao nz nx ny = [nz; nx; ny].
Proof. intros H. apply perm3_cases in H. cbn in H. decompose [or] H; subst; try reflexivity; contradiction. Qed.

Lemma source_range o ao nz nx ny i j k : is_perm3 ao = true -> i < nz -> j < nx -> k < ny ->
  source_offset o ao nz nx ny i j k < nz * nx * ny.
Proof.
  intros H Hi Hj Hk. assert (Hi' : nz - 1 - i < nz) by lia. apply perm3_cases in H. cbn in H.
  decompose [or] H; subst; try contradiction; unfold source_offset; cbn [argsort map seq length index_of Nat.eqb nth];
  (eapply Nat.lt_le_trans; [apply offset_range; assumption|nia]).
Qed.

Lemma source_inj o ao nz nx ny i j k i' j' k' : is_perm3 ao = true ->
  i < nz -> j < nx -> k < ny -> i' < nz -> j' < nx -> k' < ny ->
  source_offset o ao nz nx ny i j k = source_offset o ao nz nx ny i' j' k' -> i = i' /\ j = j' /\ k = k'.
Proof.
  intros H Hi Hj Hk Hi' Hj' Hk'.
  assert (F : nz - 1 - i < nz) by lia. assert (F' : nz - 1 - i' < nz) by lia.
  apply perm3_cases in H. cbn in H.
  decompose [or] H; subst; try contradiction; unfold source_offset; cbn [argsort map seq length index_of Nat.eqb nth];
  intros E; apply offset_inj in E; try assumption; lia.
Qed.

Lemma source_surj o ao nz nx ny q : is_perm3 ao = true -> q < nz * nx * ny ->
  exists i j k, i < nz /\ j < nx /\ k < ny /\ source_offset o ao nz nx ny i j k = q.
Proof.
  intros H Hq. apply perm3_cases in H. cbn in H.
  assert (G : forall m0 m1 m2, m0 * m1 * m2 = nz * nx * ny ->
     exists a b c, a < m0 /\ b < m1 /\ c < m2 /\ q = offset o m0 m1 m2 a b c) by (intros; apply offset_surj; lia).
  decompose [or] H; subst; try contradiction.
  - destruct (G nz nx ny ltac:(nia)) as (a & b & c & Ha & Hb & Hc & ->). exists (nz - 1 - a), b, c.
    repeat split; try lia. unfold source_offset; cbn [argsort map seq length index_of Nat.eqb nth]. f_equal; lia.
  - destruct (G nz ny nx ltac:(nia)) as (a & b & c & Ha & Hb & Hc & ->). exists (nz - 1 - a), c, b.
    repeat split; try lia. unfold source_offset; cbn [argsort map seq length index_of Nat.eqb nth]. f_equal; lia.
  - destruct (G nx nz ny ltac:(nia)) as (a & b & c & Ha & Hb & Hc & ->). exists (nz - 1 - b), a, c.
    repeat split; try lia. unfold source_offset; cbn [argsort map seq length index_of Nat.eqb nth]. f_equal; lia.
  - destruct (G ny nz nx ltac:(nia)) as (a & b & c & Ha & Hb & Hc & ->). exists (nz - 1 - b), c, a.
    repeat split; try lia. unfold source_offset; cbn [argsort map seq length index_of Nat.eqb nth]. f_equal; lia.
  - destruct (G nx ny nz ltac:(nia)) as (a & b & c & Ha & Hb & Hc & ->). exists (nz - 1 - c), a, b.
    repeat split; try lia. unfold source_offset; cbn [argsort map seq length index_of Nat.eqb nth]. f_equal; lia.
  - destruct (G ny nx nz ltac:(nia)) as (a & b & c & Ha & Hb & Hc & ->). exists (nz - 1 - c), b, a.
    repeat split; try lia. unfold source_offset; cbn [argsort map seq length index_of Nat.eqb nth]. f_equal; lia.
Qed.

Lemma source_layout o ao nz nx ny i j k : is_perm3 ao = true ->
  exists m0 m1 m2 a b c,
    (forall q, q < 3 -> nth (nth q ao 0) [m0; m1; m2] 0 = nth q [nz; nx; ny] 0) /\
    (forall q, q < 3 -> nth (nth q ao 0) [a; b; c] 0 = nth q [nz - 1 - i; j; k] 0) /\
    source_offset o ao nz nx ny i j k = match o with OrdF => a + m0 * (b + m1 * c) | OrdC => (a * m1 + b) * m2 + c end.
Proof.
  intros H. apply perm3_cases in H. cbn in H.
  assert (L : forall (P : nat -> Prop), P 0 -> P 1 -> P 2 -> forall q, q < 3 -> P q).
  { intros P H0 H1 H2 q Hq. assert (q = 0 \/ q = 1 \/ q = 2) as [-> | [-> | ->]] by lia; assumption. }
  decompose [or] H; subst; try contradiction; do 6 eexists;
  (split; [apply L; cbn; reflexivity|]); (split; [apply L; cbn; reflexivity|]);
  unfold source_offset, offset; cbn [argsort map seq length index_of Nat.eqb nth]; reflexivity.
Qed.

Section R.
Context {A : Type}.
Variable d : A.
Implicit Types file : list A.

Lemma read_bin_inv file bo nz nx ny ao o sh g :
  read_bin d file bo (Some nz) (Some nx) (Some ny) ao o = Ok (sh, g) ->
  length file = nz * nx * ny /\ is_perm3 ao = true /\ sh = [nz; nx; ny] /\
  g = fun i j k => nth (source_offset o ao nz nx ny i j k) file d.
Proof.
  unfold read_bin. destruct bo; cbn [negb]; [|discriminate].
  destruct (Nat.eqb_spec (length file) (nz * nx * ny)) as [E|E]; cbn [negb]; [|discriminate].
  destruct (is_perm3 ao) eqn:P; cbn [negb]; [|discriminate].
  intros H. injection H as <- <-. rewrite result_shape_perm by exact P. auto.
Qed.

Lemma read_bin_ok file nz nx ny ao o : length file = nz * nx * ny -> is_perm3 ao = true ->
  exists r, read_bin d file true (Some nz) (Some nx) (Some ny) ao o = Ok r.
Proof. intros E P. unfold read_bin. rewrite E, Nat.eqb_refl, P. cbn. eauto. Qed.
End R.
