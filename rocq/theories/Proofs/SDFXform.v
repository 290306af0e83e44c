(** Proofs about transformed domains: evaluation, boxes, corners, stretch aliasing. *)
From Coq Require Import List ZArith Reals Bool Lra Lia.
From Verif Require Import Model.Base Model.SDF Spec.Geom Spec.Domains Spec.Transform Proofs.SDFPrim Proofs.SDFSets.
Import ListNotations.
Local Open Scope R_scope.

Lemma Reqb_true x y : Reqb x y = true -> x = y.
Proof. unfold Reqb. destruct (Req_EM_T x y); congruence. Qed.
Lemma Reqb_false x y : Reqb x y = false -> x <> y.
Proof. unfold Reqb. destruct (Req_EM_T x y); congruence. Qed.

Lemma cs1 a : cos a * cos a = 1 - sin a * sin a.
Proof. pose proof (sin2_cos2 a) as H. unfold Rsqr in H. lra. Qed.

(** back/forward of one rotation *)
Ltac rowq := cbn [mat_vec map transpose2 seq length nth rot2 rot_x rot_y rot_z dot map2 combine fold_right fst snd rot2_pt rotx_pt roty_pt rotz_pt].
Ltac peel := repeat (apply (f_equal2 (@cons R))); try reflexivity.
Lemma rot2_bf a x y : mat_vec (transpose2 (rot2 a)) (rot2_pt a [x; y]) = [x; y].
Proof. unfold mat_vec, transpose2, dot, map2. rowq. pose proof (cs1 a). peel; ring_simplify; replace (cos a ^ 2) with (1 - sin a * sin a) by (rewrite <- H; ring); ring. Qed.
Lemma rot2_fb a x y : rot2_pt a (mat_vec (transpose2 (rot2 a)) [x; y]) = [x; y].
Proof. unfold mat_vec, transpose2, dot, map2. rowq. pose proof (cs1 a). peel; ring_simplify; replace (cos a ^ 2) with (1 - sin a * sin a) by (rewrite <- H; ring); ring. Qed.
Lemma rotx_bf a x y z : mat_vec (transpose2 (rot_x a)) (rotx_pt a [x; y; z]) = [x; y; z].
Proof. unfold mat_vec, transpose2, dot, map2. rowq. pose proof (cs1 a). peel; ring_simplify; try replace (cos a ^ 2) with (1 - sin a * sin a) by (rewrite <- H; ring); ring. Qed.
Lemma rotx_fb a x y z : rotx_pt a (mat_vec (transpose2 (rot_x a)) [x; y; z]) = [x; y; z].
Proof. unfold mat_vec, transpose2, dot, map2. rowq. pose proof (cs1 a). peel; ring_simplify; try replace (cos a ^ 2) with (1 - sin a * sin a) by (rewrite <- H; ring); ring. Qed.
Lemma roty_bf a x y z : mat_vec (transpose2 (rot_y a)) (roty_pt a [x; y; z]) = [x; y; z].
Proof. unfold mat_vec, transpose2, dot, map2. rowq. pose proof (cs1 a). peel; ring_simplify; try replace (cos a ^ 2) with (1 - sin a * sin a) by (rewrite <- H; ring); ring. Qed.
Lemma roty_fb a x y z : roty_pt a (mat_vec (transpose2 (rot_y a)) [x; y; z]) = [x; y; z].
Proof. unfold mat_vec, transpose2, dot, map2. rowq. pose proof (cs1 a). peel; ring_simplify; try replace (cos a ^ 2) with (1 - sin a * sin a) by (rewrite <- H; ring); ring. Qed.
Lemma rotz_bf a x y z : mat_vec (transpose2 (rot_z a)) (rotz_pt a [x; y; z]) = [x; y; z].
Proof. unfold mat_vec, transpose2, dot, map2. rowq. pose proof (cs1 a). peel; ring_simplify; try replace (cos a ^ 2) with (1 - sin a * sin a) by (rewrite <- H; ring); ring. Qed.
Lemma rotz_fb a x y z : rotz_pt a (mat_vec (transpose2 (rot_z a)) [x; y; z]) = [x; y; z].
Proof. unfold mat_vec, transpose2, dot, map2. rowq. pose proof (cs1 a). peel; ring_simplify; try replace (cos a ^ 2) with (1 - sin a * sin a) by (rewrite <- H; ring); ring. Qed.
Lemma rot2_0 p : rot2_pt 0 p = p.
Proof. destruct p as [|x [|y [|? ?]]]; try reflexivity. cbn. rewrite cos_0, sin_0. peel; ring. Qed.
Lemma rotx_0 p : rotx_pt 0 p = p.
Proof. destruct p as [|x [|y [|z [|? ?]]]]; try reflexivity. cbn. rewrite cos_0, sin_0. peel; ring. Qed.
Lemma roty_0 p : roty_pt 0 p = p.
Proof. destruct p as [|x [|y [|z [|? ?]]]]; try reflexivity. cbn. rewrite cos_0, sin_0. peel; ring. Qed.
Lemma rotz_0 p : rotz_pt 0 p = p.
Proof. destruct p as [|x [|y [|z [|? ?]]]]; try reflexivity. cbn. rewrite cos_0, sin_0. peel; ring. Qed.

(** stretch *)
Lemma Exists2 a b : Exists (fun t : R => t <> 0) [a; b] -> 0 < a * a + b * b.
Proof.
  intros H. pose proof (sq_nn a). pose proof (sq_nn b). rewrite !Exists_cons, Exists_nil in H.
  destruct H as [H|[H|[]]]; apply Rsqr_pos_lt in H; unfold Rsqr in H; lra.
Qed.
Lemma Exists3 a b c : Exists (fun t : R => t <> 0) [a; b; c] -> 0 < a * a + b * b + c * c.
Proof.
  intros H. pose proof (sq_nn a). pose proof (sq_nn b). pose proof (sq_nn c). rewrite !Exists_cons, Exists_nil in H.
  destruct H as [H|[H|[H|[]]]]; apply Rsqr_pos_lt in H; unfold Rsqr in H; lra.
Qed.
Definition nonzero (w : list R) : Prop := Exists (fun t => t <> 0) w.
Lemma dot_self_pos w : nonzero w -> 0 < dot w w.
Proof.
  intros H. assert (forall v, 0 <= dot v v) as NN.
  { induction v as [|a v IH]; [cbn; lra|]. change (dot (a :: v) (a :: v)) with (a * a + dot v v). pose proof (sq_nn a). lra. }
  induction H as [a v Ha|a v _ IH]; change (dot (a :: v) (a :: v)) with (a * a + dot v v).
  - apply Rsqr_pos_lt in Ha. unfold Rsqr in Ha. pose proof (NN v). lra.
  - pose proof (sq_nn a). lra.
Qed.
Lemma norm2_pos w : nonzero w -> 0 < norm2 w.
Proof. intros H. apply sqrt_lt_R0. apply dot_self_pos, H. Qed.
Lemma norm2_sq w : nonzero w -> norm2 w * norm2 w = dot w w.
Proof. intros H. apply sqrt_sqrt. left. apply dot_self_pos, H. Qed.

(** model's scale_back / stretch_point against the textbook stretch, dimension 2 and 3 *)
Lemma sp2 a b x y : nonzero [a; b] -> stretch_point (normalise [a; b]) (norm2 [a; b]) [x; y] = stretch_pt [a; b] [x; y].
Proof.
  intros H. pose proof (norm2_pos _ H) as N. pose proof (norm2_sq _ H) as S.
  unfold stretch_point, normalise, stretch_pt. replace (a * a + b * b) with (dot [a; b] [a; b]) by (unfold dot, map2; cbn; ring).
  fold (norm2 [a; b]). rewrite <- S. set (n := norm2 [a; b]) in *. clearbody n. unfold dot, map2. cbn. peel; field; lra.
Qed.
Lemma sp3 a b c x y z : nonzero [a; b; c] -> stretch_point (normalise [a; b; c]) (norm2 [a; b; c]) [x; y; z] = stretch_pt [a; b; c] [x; y; z].
Proof.
  intros H. pose proof (norm2_pos _ H) as N. pose proof (norm2_sq _ H) as S.
  unfold stretch_point, normalise, stretch_pt. replace (a * a + b * b + c * c) with (dot [a; b; c] [a; b; c]) by (unfold dot, map2; cbn; ring).
  fold (norm2 [a; b; c]). rewrite <- S. set (n := norm2 [a; b; c]) in *. clearbody n. unfold dot, map2. cbn. peel; field; lra.
Qed.
(** unit vectors *)
Lemma sb_sp2 u v al x y : u * u + v * v = 1 -> al <> 0 -> scale_back [u; v] al (stretch_point [u; v] al [x; y]) = [x; y].
Proof.
  intros H Ha. unfold scale_back, stretch_point, dot, map2. cbn. set (s := u * x + (v * y + 0)).
  replace (u * (s * u * al + (x - s * u)) + (v * (s * v * al + (y - s * v)) + 0)) with (s * al * (u * u + v * v) + s - s * (u * u + v * v)) by (unfold s; ring).
  rewrite H. peel; unfold s; field; exact Ha.
Qed.
Lemma sp_sb2 u v al x y : u * u + v * v = 1 -> al <> 0 -> stretch_point [u; v] al (scale_back [u; v] al [x; y]) = [x; y].
Proof.
  intros H Ha. unfold scale_back, stretch_point, dot, map2. cbn. set (s := u * x + (v * y + 0)).
  replace (u * (s * u / al + (x - s * u)) + (v * (s * v / al + (y - s * v)) + 0)) with (s / al * (u * u + v * v) + s - s * (u * u + v * v)) by (unfold s, Rdiv; ring).
  rewrite H. peel; unfold s; field; exact Ha.
Qed.
Lemma sb_sp3 u v w al x y z : u * u + v * v + w * w = 1 -> al <> 0 -> scale_back [u; v; w] al (stretch_point [u; v; w] al [x; y; z]) = [x; y; z].
Proof.
  intros H Ha. unfold scale_back, stretch_point, dot, map2. cbn. set (s := u * x + (v * y + (w * z + 0))).
  replace (u * (s * u * al + (x - s * u)) + (v * (s * v * al + (y - s * v)) + (w * (s * w * al + (z - s * w)) + 0))) with (s * al * (u * u + v * v + w * w) + s - s * (u * u + v * v + w * w)) by (unfold s; ring).
  rewrite H. peel; unfold s; field; exact Ha.
Qed.
Lemma sp_sb3 u v w al x y z : u * u + v * v + w * w = 1 -> al <> 0 -> stretch_point [u; v; w] al (scale_back [u; v; w] al [x; y; z]) = [x; y; z].
Proof.
  intros H Ha. unfold scale_back, stretch_point, dot, map2. cbn. set (s := u * x + (v * y + (w * z + 0))).
  replace (u * (s * u / al + (x - s * u)) + (v * (s * v / al + (y - s * v)) + (w * (s * w / al + (z - s * w)) + 0))) with (s / al * (u * u + v * v + w * w) + s - s * (u * u + v * v + w * w)) by (unfold s, Rdiv; ring).
  rewrite H. peel; unfold s; field; exact Ha.
Qed.
Lemma unit2 a b : nonzero [a; b] -> a / norm2 [a; b] * (a / norm2 [a; b]) + b / norm2 [a; b] * (b / norm2 [a; b]) = 1.
Proof.
  intros H. pose proof (norm2_pos _ H) as N. pose proof (norm2_sq _ H) as S. set (n := norm2 [a; b]) in *. clearbody n.
  unfold dot, map2 in S. cbn in S. replace (a / n * (a / n) + b / n * (b / n)) with ((a * a + (b * b + 0)) / (n * n)) by (field; lra).
  rewrite <- S. field. lra.
Qed.
Lemma unit3 a b c : nonzero [a; b; c] -> a / norm2 [a; b; c] * (a / norm2 [a; b; c]) + b / norm2 [a; b; c] * (b / norm2 [a; b; c]) + c / norm2 [a; b; c] * (c / norm2 [a; b; c]) = 1.
Proof.
  intros H. pose proof (norm2_pos _ H) as N. pose proof (norm2_sq _ H) as S. set (n := norm2 [a; b; c]) in *. clearbody n.
  unfold dot, map2 in S. cbn in S. replace (a / n * (a / n) + b / n * (b / n) + c / n * (c / n)) with ((a * a + (b * b + (c * c + 0))) / (n * n)) by (field; lra).
  rewrite <- S. field. lra.
Qed.

Lemma len2 {A} (p : list A) : length p = 2%nat -> exists x y, p = [x; y].
Proof. destruct p as [|x [|y [|? ?]]]; try discriminate. eauto. Qed.
Lemma len3 {A} (p : list A) : length p = 3%nat -> exists x y z, p = [x; y; z].
Proof. destruct p as [|x [|y [|z [|? ?]]]]; try discriminate. eauto. Qed.

(** bf = back after forward, fb = forward after back, for each optional stage *)
Lemma st2_bf w p : stretch_ok 2 (Some w) -> length p = 2%nat -> scale_back (normalise w) (norm2 w) (stretch_pt w p) = p.
Proof.
  intros [L N] Hp. destruct (len2 w L) as (a & b & ->). destruct (len2 p Hp) as (x & y & ->).
  rewrite <- sp2 by exact N. cbn [normalise map]. apply sb_sp2; [apply unit2, N|]. pose proof (norm2_pos _ N). lra.
Qed.
Lemma st2_fb w p : stretch_ok 2 (Some w) -> length p = 2%nat -> stretch_pt w (scale_back (normalise w) (norm2 w) p) = p.
Proof.
  intros [L N] Hp. destruct (len2 w L) as (a & b & ->). destruct (len2 p Hp) as (x & y & ->).
  set (q := scale_back (normalise [a; b]) (norm2 [a; b]) [x; y]).
  assert (exists x' y', q = [x'; y']) as (x' & y' & E) by (apply len2; reflexivity). rewrite E, <- sp2, <- E by exact N.
  unfold q. cbn [normalise map]. apply sp_sb2; [apply unit2, N|]. pose proof (norm2_pos _ N). lra.
Qed.
Lemma st3_bf w p : stretch_ok 3 (Some w) -> length p = 3%nat -> scale_back (normalise w) (norm2 w) (stretch_pt w p) = p.
Proof.
  intros [L N] Hp. destruct (len3 w L) as (a & b & c & ->). destruct (len3 p Hp) as (x & y & z & ->).
  rewrite <- sp3 by exact N. cbn [normalise map]. apply sb_sp3; [apply unit3, N|]. pose proof (norm2_pos _ N). lra.
Qed.
Lemma st3_fb w p : stretch_ok 3 (Some w) -> length p = 3%nat -> stretch_pt w (scale_back (normalise w) (norm2 w) p) = p.
Proof.
  intros [L N] Hp. destruct (len3 w L) as (a & b & c & ->). destruct (len3 p Hp) as (x & y & z & ->).
  set (q := scale_back (normalise [a; b; c]) (norm2 [a; b; c]) [x; y; z]).
  assert (exists x' y' z', q = [x'; y'; z']) as (x' & y' & z' & E) by (apply len3; reflexivity). rewrite E, <- sp3, <- E by exact N.
  unfold q. cbn [normalise map]. apply sp_sb3; [apply unit3, N|]. pose proof (norm2_pos _ N). lra.
Qed.
Lemma tr_bf n t p : trans_ok n (Some t) -> (n = 2 \/ n = 3)%nat -> length p = n -> translate_back t (translate_pt t p) = p.
Proof.
  cbn. intros Ht [-> | ->] Hp.
  - destruct (len2 t Ht) as (a & b & ->). destruct (len2 p Hp) as (x & y & ->). unfold translate_back, map2. cbn. peel; ring.
  - destruct (len3 t Ht) as (a & b & c & ->). destruct (len3 p Hp) as (x & y & z & ->). unfold translate_back, map2. cbn. peel; ring.
Qed.
Lemma tr_fb n t p : trans_ok n (Some t) -> (n = 2 \/ n = 3)%nat -> length p = n -> translate_pt t (translate_back t p) = p.
Proof.
  cbn. intros Ht [-> | ->] Hp.
  - destruct (len2 t Ht) as (a & b & ->). destruct (len2 p Hp) as (x & y & ->). unfold translate_back, map2. cbn. peel; ring.
  - destruct (len3 t Ht) as (a & b & c & ->). destruct (len3 p Hp) as (x & y & z & ->). unfold translate_back, map2. cbn. peel; ring.
Qed.
(** lengths *)
Lemma rot2_len a p : length (rot2_pt a p) = length p.
Proof. destruct p as [|x [|y [|? ?]]]; reflexivity. Qed.
Lemma rotx_len a p : length (rotx_pt a p) = length p.
Proof. destruct p as [|x [|y [|z [|? ?]]]]; reflexivity. Qed.
Lemma roty_len a p : length (roty_pt a p) = length p.
Proof. destruct p as [|x [|y [|z [|? ?]]]]; reflexivity. Qed.
Lemma rotz_len a p : length (rotz_pt a p) = length p.
Proof. destruct p as [|x [|y [|z [|? ?]]]]; reflexivity. Qed.
Lemma translate_len t p : length (translate_pt t p) = length p.
Proof. destruct t as [|? [|? [|? [|? ?]]]], p as [|? [|? [|? [|? ?]]]]; reflexivity. Qed.
Lemma stretch_len t p : length (stretch_pt t p) = length p.
Proof. destruct t as [|? [|? [|? [|? ?]]]], p as [|? [|? [|? [|? ?]]]]; reflexivity. Qed.
Lemma opt_len f o p : (forall t p, length (f t p) = length p) -> length (opt_pt f o p) = length p.
Proof. intros H. destruct o; [apply H|reflexivity]. Qed.
Lemma map2_len {A B C} (f : A -> B -> C) l m : length l = length m -> length (map2 f l m) = length m.
Proof. intros H. unfold map2. rewrite map_length, combine_length. lia. Qed.

Lemma manipulate2_bf s a t p : stretch_ok 2 s -> trans_ok 2 t -> length p = 2%nat ->
  manipulate 2 (manip2 s a t) (forward2 s a t p) = p.
Proof.
  intros Hs Ht Hp. unfold manipulate, manip2, forward2. cbn [m_rot m_stretch m_trans Nat.eqb]. rewrite Reqb_refl.
  set (p1 := opt_pt stretch_pt s p). assert (length p1 = 2%nat) as L1 by (unfold p1; rewrite opt_len by apply stretch_len; exact Hp).
  set (p2 := rot2_pt a p1). assert (length p2 = 2%nat) as L2 by (unfold p2; rewrite rot2_len; exact L1).
  assert (match t return list R with Some t0 => translate_back t0 (opt_pt translate_pt t p2) | None => opt_pt translate_pt t p2 end = p2) as ->.
  { destruct t as [t|]; [|reflexivity]. apply (tr_bf 2); auto. }
  assert ((if Reqb a 0 return list R then p2 else mat_vec (transpose2 (rot2 a)) p2) = p1) as ->.
  { unfold p2. destruct (Reqb a 0) eqn:E; [apply Reqb_true in E; subst a; apply rot2_0|].
    destruct (len2 p1 L1) as (x & y & ->). apply rot2_bf. }
  unfold p1. destruct s as [w|]; [|reflexivity]. apply st2_bf; assumption.
Qed.
Lemma manipulate2_fb s a t p : stretch_ok 2 s -> trans_ok 2 t -> length p = 2%nat ->
  forward2 s a t (manipulate 2 (manip2 s a t) p) = p /\ length (manipulate 2 (manip2 s a t) p) = 2%nat.
Proof.
  intros Hs Ht Hp. unfold manipulate, manip2, forward2. cbn [m_rot m_stretch m_trans Nat.eqb]. rewrite Reqb_refl.
  set (p1 := match t return list R with Some t0 => translate_back t0 p | None => p end).
  assert (length p1 = 2%nat) as L1.
  { unfold p1. destruct t as [t|]; [|exact Hp]. unfold translate_back. cbn in Ht. rewrite map2_len by congruence. exact Ht. }
  set (p2 := if Reqb a 0 return list R then p1 else mat_vec (transpose2 (rot2 a)) p1).
  assert (length p2 = 2%nat) as L2.
  { unfold p2. destruct (Reqb a 0); [exact L1|reflexivity]. }
  set (p3 := match s return list R with Some v => scale_back (normalise v) (norm2 v) p2 | None => p2 end).
  assert (opt_pt stretch_pt s p3 = p2) as ->.
  { unfold p3. destruct s as [w|]; [|reflexivity]. apply st2_fb; assumption. }
  assert (rot2_pt a p2 = p1) as ->.
  { unfold p2. destruct (Reqb a 0) eqn:E; [apply Reqb_true in E; subst a; apply rot2_0|].
    destruct (len2 p1 L1) as (x & y & ->). apply rot2_fb. }
  split.
  - unfold p1. destruct t as [t|]; [|reflexivity]. apply (tr_fb 2); auto.
  - unfold p3. destruct s as [w|]; [|exact L2]. cbn in Hs. destruct Hs as [Lw _]. unfold scale_back. rewrite map2_len; [exact L2|].
    unfold normalise. rewrite map_length. congruence.
Qed.
Lemma manipulate3_bf s a b c t p : stretch_ok 3 s -> trans_ok 3 t -> length p = 3%nat ->
  manipulate 3 (manip3 s a b c t) (forward3 s a b c t p) = p.
Proof.
  intros Hs Ht Hp. unfold manipulate, manip3, forward3. cbn [m_rot m_stretch m_trans Nat.eqb].
  set (p1 := opt_pt stretch_pt s p). assert (length p1 = 3%nat) as L1 by (unfold p1; rewrite opt_len by apply stretch_len; exact Hp).
  set (p2 := rotz_pt c p1). assert (length p2 = 3%nat) as L2 by (unfold p2; rewrite rotz_len; exact L1).
  set (p3 := roty_pt b p2). assert (length p3 = 3%nat) as L3 by (unfold p3; rewrite roty_len; exact L2).
  set (p4 := rotx_pt a p3). assert (length p4 = 3%nat) as L4 by (unfold p4; rewrite rotx_len; exact L3).
  assert (match t return list R with Some t0 => translate_back t0 (opt_pt translate_pt t p4) | None => opt_pt translate_pt t p4 end = p4) as ->.
  { destruct t as [t|]; [|reflexivity]. apply (tr_bf 3); auto. }
  assert ((if Reqb a 0 return list R then p4 else mat_vec (transpose2 (rot_x a)) p4) = p3) as ->.
  { unfold p4. destruct (Reqb a 0) eqn:E; [apply Reqb_true in E; subst a; apply rotx_0|].
    destruct (len3 p3 L3) as (x & y & z & ->). apply rotx_bf. }
  assert ((if Reqb b 0 return list R then p3 else mat_vec (transpose2 (rot_y b)) p3) = p2) as ->.
  { unfold p3. destruct (Reqb b 0) eqn:E; [apply Reqb_true in E; subst b; apply roty_0|].
    destruct (len3 p2 L2) as (x & y & z & ->). apply roty_bf. }
  assert ((if Reqb c 0 return list R then p2 else mat_vec (transpose2 (rot_z c)) p2) = p1) as ->.
  { unfold p2. destruct (Reqb c 0) eqn:E; [apply Reqb_true in E; subst c; apply rotz_0|].
    destruct (len3 p1 L1) as (x & y & z & ->). apply rotz_bf. }
  unfold p1. destruct s as [w|]; [|reflexivity]. apply st3_bf; assumption.
Qed.
Lemma manipulate3_fb s a b c t p : stretch_ok 3 s -> trans_ok 3 t -> length p = 3%nat ->
  forward3 s a b c t (manipulate 3 (manip3 s a b c t) p) = p /\ length (manipulate 3 (manip3 s a b c t) p) = 3%nat.
Proof.
  intros Hs Ht Hp. unfold manipulate, manip3, forward3. cbn [m_rot m_stretch m_trans Nat.eqb].
  set (p1 := match t return list R with Some t0 => translate_back t0 p | None => p end).
  assert (length p1 = 3%nat) as L1.
  { unfold p1. destruct t as [t|]; [|exact Hp]. unfold translate_back. cbn in Ht. rewrite map2_len by congruence. exact Ht. }
  set (p2 := if Reqb a 0 return list R then p1 else mat_vec (transpose2 (rot_x a)) p1).
  assert (length p2 = 3%nat) as L2 by (unfold p2; destruct (Reqb a 0); [exact L1|reflexivity]).
  set (p2' := if Reqb b 0 return list R then p2 else mat_vec (transpose2 (rot_y b)) p2).
  assert (length p2' = 3%nat) as L2' by (unfold p2'; destruct (Reqb b 0); [exact L2|reflexivity]).
  set (p2'' := if Reqb c 0 return list R then p2' else mat_vec (transpose2 (rot_z c)) p2').
  assert (length p2'' = 3%nat) as L2'' by (unfold p2''; destruct (Reqb c 0); [exact L2'|reflexivity]).
  set (p3 := match s return list R with Some v => scale_back (normalise v) (norm2 v) p2'' | None => p2'' end).
  assert (opt_pt stretch_pt s p3 = p2'') as ->.
  { unfold p3. destruct s as [w|]; [|reflexivity]. apply st3_fb; assumption. }
  assert (rotz_pt c p2'' = p2') as ->.
  { unfold p2''. destruct (Reqb c 0) eqn:E; [apply Reqb_true in E; subst c; apply rotz_0|].
    destruct (len3 p2' L2') as (x & y & z & ->). apply rotz_fb. }
  assert (roty_pt b p2' = p2) as ->.
  { unfold p2'. destruct (Reqb b 0) eqn:E; [apply Reqb_true in E; subst b; apply roty_0|].
    destruct (len3 p2 L2) as (x & y & z & ->). apply roty_fb. }
  assert (rotx_pt a p2 = p1) as ->.
  { unfold p2. destruct (Reqb a 0) eqn:E; [apply Reqb_true in E; subst a; apply rotx_0|].
    destruct (len3 p1 L1) as (x & y & z & ->). apply rotx_fb. }
  split.
  - unfold p1. destruct t as [t|]; [|reflexivity]. apply (tr_fb 3); auto.
  - unfold p3. destruct s as [w|]; [|exact L2'']. cbn in Hs. destruct Hs as [Lw _]. unfold scale_back. rewrite map2_len; [exact L2''|].
    unfold normalise. rewrite map_length. congruence.
Qed.
