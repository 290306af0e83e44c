(** Slopes of the signed distance functions (C119). *)
From Coq Require Import List Reals Bool Lra Lia Psatz.
From Verif Require Import Model.Base Model.SDF Spec.Geom Spec.Transform Spec.Solids Proofs.ListAux Proofs.Euclid Proofs.SDFPrim.
Import ListNotations.
Local Open Scope R_scope.

Lemma Rabs_le_inv x y : Rabs x <= y -> - y <= x <= y. Proof. unfold Rabs. destruct (Rcase_abs x); lra. Qed.
Lemma edist2 a b c d : edist [a; b] [c; d] = sqrt ((a - c) ^ 2 + (b - d) ^ 2).
Proof. unfold edist, sqdist. f_equal. ring. Qed.
Lemma edist3 a b c d e f : edist [a; b; c] [d; e; f] = sqrt ((a - d) ^ 2 + ((b - e) ^ 2 + (c - f) ^ 2)).
Proof. unfold edist, sqdist. f_equal. ring. Qed.
Lemma len2 {A} (x : list A) : length x = 2%nat -> exists a b, x = [a; b].
Proof. destruct x as [|a [|b [|]]]; try discriminate. eauto. Qed.
Lemma len3 {A} (x : list A) : length x = 3%nat -> exists a b c, x = [a; b; c].
Proof. destruct x as [|a [|b [|c [|]]]]; try discriminate. eauto. Qed.
Lemma sqrt_le_mul A B L : 0 <= L -> 0 <= B -> A <= L * L * B -> sqrt A <= L * sqrt B.
Proof.
  intros HL HB H. replace (L * sqrt B) with (sqrt (L * L * B)); [apply sqrt_le_1_alt, H|].
  rewrite sqrt_mult by nra. rewrite sqrt_square by exact HL. reflexivity.
Qed.
(** reverse triangle inequality *)
Lemma dist_slope p q c : length p = length c -> length q = length c -> Rabs (edist p c - edist q c) <= edist p q.
Proof.
  intros H1 H2. pose proof (triangle p q c ltac:(congruence) H2). pose proof (triangle q p c ltac:(congruence) H1). rewrite (edist_sym q p) in *.
  apply Rabs_le. lra.
Qed.
Lemma edist_map_sq p q f g L : 0 <= L -> sqdist f g <= L * L * sqdist p q -> edist f g <= L * edist p q.
Proof. intros H1 H2. unfold edist. apply sqrt_le_mul; [exact H1|apply sqdist_nonneg|exact H2]. Qed.

(** ---- manipulations ---- *)
Definition isometry (n : nat) (g : pt -> pt) : Prop := forall x y, length x = n -> length y = n -> length (g x) = n /\ sqdist (g x) (g y) = sqdist x y.
Lemma iso_id n : isometry n (fun x => x). Proof. intros x y X Y. auto. Qed.
Lemma iso_comp n g h : isometry n g -> isometry n h -> isometry n (fun x => h (g x)).
Proof. intros G H x y X Y. destruct (G x y X Y) as (G1 & G2). destruct (G y x Y X) as (G3 & _). destruct (H (g x) (g y) G1 G3) as (H1 & H2). split; [exact H1|congruence]. Qed.
Lemma iso_trans n t : (n = 2 \/ n = 3)%nat -> trans_ok n t -> isometry n (fun x => match t with Some t => translate_back t x | None => x end).
Proof.
  intros N T x y X Y. destruct t as [t|]; [|auto]. cbn in T. destruct N as [-> | ->].
  - destruct (len2 _ T) as (? & ? & ->), (len2 _ X) as (? & ? & ->), (len2 _ Y) as (? & ? & ->). cbn. split; [reflexivity|ring].
  - destruct (len3 _ T) as (? & ? & ? & ->), (len3 _ X) as (? & ? & ? & ->), (len3 _ Y) as (? & ? & ? & ->). cbn. split; [reflexivity|ring].
Qed.
Lemma cs1 a : cos a * cos a = 1 - sin a * sin a.
Proof. pose proof (sin2_cos2 a). unfold Rsqr in *. lra. Qed.
Lemma iso_rot2 a : isometry 2 (mat_vec (transpose2 (rot2 a))).
Proof.
  intros x y X Y. destruct (len2 _ X) as (x1 & x2 & ->), (len2 _ Y) as (y1 & y2 & ->). split; [reflexivity|]. cbn. pose proof (cs1 a) as C. set (c := cos a) in *. set (s := sin a) in *.
  transitivity ((c * c + s * s) * ((x1 - y1) ^ 2 + (x2 - y2) ^ 2)); [ring|rewrite C; ring].
Qed.
Lemma iso_rotx a : isometry 3 (mat_vec (transpose2 (rot_x a))).
Proof.
  intros x y X Y. destruct (len3 _ X) as (x1 & x2 & x3 & ->), (len3 _ Y) as (y1 & y2 & y3 & ->). split; [reflexivity|]. cbn. pose proof (cs1 a) as C. set (c := cos a) in *. set (s := sin a) in *.
  transitivity ((x1 - y1) ^ 2 + (c * c + s * s) * ((x2 - y2) ^ 2 + (x3 - y3) ^ 2)); [ring|rewrite C; ring].
Qed.
Lemma iso_roty a : isometry 3 (mat_vec (transpose2 (rot_y a))).
Proof.
  intros x y X Y. destruct (len3 _ X) as (x1 & x2 & x3 & ->), (len3 _ Y) as (y1 & y2 & y3 & ->). split; [reflexivity|]. cbn. pose proof (cs1 a) as C. set (c := cos a) in *. set (s := sin a) in *.
  transitivity ((x2 - y2) ^ 2 + (c * c + s * s) * ((x1 - y1) ^ 2 + (x3 - y3) ^ 2)); [ring|rewrite C; ring].
Qed.
Lemma iso_rotz a : isometry 3 (mat_vec (transpose2 (rot_z a))).
Proof.
  intros x y X Y. destruct (len3 _ X) as (x1 & x2 & x3 & ->), (len3 _ Y) as (y1 & y2 & y3 & ->). split; [reflexivity|]. cbn. pose proof (cs1 a) as C. set (c := cos a) in *. set (s := sin a) in *.
  transitivity ((x3 - y3) ^ 2 + (c * c + s * s) * ((x1 - y1) ^ 2 + (x2 - y2) ^ 2)); [ring|rewrite C; ring].
Qed.
Lemma iso_if n (b : bool) g : isometry n g -> isometry n (fun x => if b then x else g x).
Proof. destruct b; [intros _; apply iso_id|auto]. Qed.

(** shrinking by the stretch: u a unit vector *)
Lemma scale_sq W c alpha L : 1 <= L -> 0 < alpha -> 1 <= L * alpha -> 0 <= W - c * c -> W - c * c + (c / alpha) * (c / alpha) <= L * L * W.
Proof.
  intros HL HA HB HW. assert (I : / alpha <= L).
  { apply (Rmult_le_reg_r alpha); [exact HA|]. rewrite Rinv_l by lra. exact HB. }
  pose proof (Rinv_0_lt_compat _ HA) as IP. unfold Rdiv. set (i := / alpha) in *. assert (i * i <= L * L) by nra. replace (c * i * (c * i)) with (c * c * (i * i)) by ring.
  pose proof (Rle_0_sqr c) as C2. unfold Rsqr in C2. assert (LL : 1 <= L * L) by nra.
  pose proof (Rmult_le_compat_l (c * c) _ _ C2 H). pose proof (Rmult_le_compat_l (W - c * c) _ _ HW LL). replace (L * L * W) with ((W - c * c) * (L * L) + c * c * (L * L)) by ring. lra.
Qed.
Lemma norm_pos w L : 1 <= L -> 1 <= L * edist w (map (fun _ => 0) w) -> 0 < edist w (map (fun _ => 0) w).
Proof. intros H1 H2. pose proof (edist_nonneg w (map (fun _ => 0) w)). destruct (Req_dec (edist w (map (fun _ => 0) w)) 0) as [E|E]; [rewrite E in H2; lra|lra]. Qed.
Lemma stretch_contracts n L s x y : (n = 2 \/ n = 3)%nat -> 1 <= L -> shrinks_by n L s -> length x = n -> length y = n ->
  let g := fun x => match s with Some v => scale_back (normalise v) (norm2 v) x | None => x end in length (g x) = n /\ edist (g x) (g y) <= L * edist x y.
Proof.
  intros N HL S X Y. destruct s as [w|]; cbn [shrinks_by] in *; [|split; [exact X|pose proof (edist_nonneg x y); nra]].
  destruct S as (WL & W). pose proof (norm_pos w L HL W) as WP. destruct N as [-> | ->].
  - destruct (len2 _ WL) as (w1 & w2 & ->), (len2 _ X) as (x1 & x2 & ->), (len2 _ Y) as (y1 & y2 & ->). split; [reflexivity|].
    assert (NE : norm2 [w1; w2] = edist [w1; w2] (map (fun _ => 0) [w1; w2])) by (unfold norm2, edist; cbn; f_equal; ring). rewrite <- NE in W, WP.
    assert (N1 : norm2 [w1; w2] * norm2 [w1; w2] = w1 * w1 + w2 * w2) by (unfold norm2; rewrite sqrt_sqrt; cbn; [ring|nra]).
    unfold normalise. cbn [map]. set (al := norm2 [w1; w2]) in *. set (u1 := w1 / al). set (u2 := w2 / al). assert (U : u1 * u1 + u2 * u2 = 1) by (unfold u1, u2; transitivity ((w1 * w1 + w2 * w2) / (al * al)); [field; lra|rewrite <- N1; field; lra]).
    apply edist_map_sq; [lra|]. set (c := u1 * (x1 - y1) + u2 * (x2 - y2)). pose proof (scale_sq ((x1 - y1) * (x1 - y1) + (x2 - y2) * (x2 - y2)) c al L HL WP W) as Q.
    assert (CS : 0 <= (x1 - y1) * (x1 - y1) + (x2 - y2) * (x2 - y2) - c * c).
    { replace ((x1 - y1) * (x1 - y1) + (x2 - y2) * (x2 - y2) - c * c) with ((u1 * (x2 - y2) - u2 * (x1 - y1)) * (u1 * (x2 - y2) - u2 * (x1 - y1))); [apply Rle_0_sqr|]. unfold c. clear - U. set (d := x1 - y1). set (e := x2 - y2).
      transitivity ((u1 * u1 + u2 * u2) * (d * d + e * e) - (u1 * d + u2 * e) * (u1 * d + u2 * e)); [ring|rewrite U; ring]. }
    specialize (Q CS). cbn. match goal with |- ?l <= _ => replace l with ((x1 - y1) * (x1 - y1) + (x2 - y2) * (x2 - y2) - c * c + c / al * (c / al)); [replace ((x1 - y1) * ((x1 - y1) * 1) + ((x2 - y2) * ((x2 - y2) * 1) + 0)) with ((x1 - y1) * (x1 - y1) + (x2 - y2) * (x2 - y2)) by ring; exact Q|] end.
    clear - U WP. clearbody u1 u2. unfold c. transitivity (((x1 - y1) - c * u1 + c / al * u1) * ((x1 - y1) - c * u1 + c / al * u1) + ((x2 - y2) - c * u2 + c / al * u2) * ((x2 - y2) - c * u2 + c / al * u2)); [|unfold c; field; lra].
    fold c. set (i := c / al). transitivity ((x1 - y1) * (x1 - y1) + (x2 - y2) * (x2 - y2) - 2 * c * (u1 * (x1 - y1) + u2 * (x2 - y2)) + c * c * (u1 * u1 + u2 * u2) + 2 * i * (u1 * (x1 - y1) + u2 * (x2 - y2)) - 2 * i * c * (u1 * u1 + u2 * u2) + i * i * (u1 * u1 + u2 * u2)); [rewrite U; fold c; ring|ring].
  - destruct (len3 _ WL) as (w1 & w2 & w3 & ->), (len3 _ X) as (x1 & x2 & x3 & ->), (len3 _ Y) as (y1 & y2 & y3 & ->). split; [reflexivity|].
    assert (NE : norm2 [w1; w2; w3] = edist [w1; w2; w3] (map (fun _ => 0) [w1; w2; w3])) by (unfold norm2, edist; cbn; f_equal; ring). rewrite <- NE in W, WP.
    assert (N1 : norm2 [w1; w2; w3] * norm2 [w1; w2; w3] = w1 * w1 + w2 * w2 + w3 * w3) by (unfold norm2; rewrite sqrt_sqrt; cbn; [ring|nra]).
    unfold normalise. cbn [map]. set (al := norm2 [w1; w2; w3]) in *. set (u1 := w1 / al). set (u2 := w2 / al). set (u3 := w3 / al). assert (U : u1 * u1 + u2 * u2 + u3 * u3 = 1) by (unfold u1, u2, u3; transitivity ((w1 * w1 + w2 * w2 + w3 * w3) / (al * al)); [field; lra|rewrite <- N1; field; lra]).
    apply edist_map_sq; [lra|]. set (d := x1 - y1). set (e := x2 - y2). set (f := x3 - y3). set (c := u1 * d + u2 * e + u3 * f). pose proof (scale_sq (d * d + e * e + f * f) c al L HL WP W) as Q.
    assert (CS : 0 <= d * d + e * e + f * f - c * c).
    { replace (d * d + e * e + f * f - c * c) with ((u1 * e - u2 * d) * (u1 * e - u2 * d) + (u1 * f - u3 * d) * (u1 * f - u3 * d) + (u2 * f - u3 * e) * (u2 * f - u3 * e)); [pose proof (Rle_0_sqr (u1 * e - u2 * d)); pose proof (Rle_0_sqr (u1 * f - u3 * d)); pose proof (Rle_0_sqr (u2 * f - u3 * e)); unfold Rsqr in *; lra|]. unfold c. clear - U. clearbody d e f u1 u2 u3.
      transitivity ((u1 * u1 + u2 * u2 + u3 * u3) * (d * d + e * e + f * f) - (u1 * d + u2 * e + u3 * f) * (u1 * d + u2 * e + u3 * f)); [ring|rewrite U; ring]. }
    specialize (Q CS). cbn. match goal with |- ?l <= _ => replace l with (d * d + e * e + f * f - c * c + c / al * (c / al)); [replace ((x1 - y1) * ((x1 - y1) * 1) + ((x2 - y2) * ((x2 - y2) * 1) + ((x3 - y3) * ((x3 - y3) * 1) + 0))) with (d * d + e * e + f * f) by (unfold d, e, f; ring); exact Q|] end.
    clear - U WP. clearbody u1 u2 u3. transitivity ((d - c * u1 + c / al * u1) * (d - c * u1 + c / al * u1) + (e - c * u2 + c / al * u2) * (e - c * u2 + c / al * u2) + (f - c * u3 + c / al * u3) * (f - c * u3 + c / al * u3)); [|unfold c, d, e, f; field; lra].
    set (i := c / al). transitivity (d * d + e * e + f * f - 2 * c * (u1 * d + u2 * e + u3 * f) + c * c * (u1 * u1 + u2 * u2 + u3 * u3) + 2 * i * (u1 * d + u2 * e + u3 * f) - 2 * i * c * (u1 * u1 + u2 * u2 + u3 * u3) + i * i * (u1 * u1 + u2 * u2 + u3 * u3)); [rewrite U; fold c; ring|ring].
Qed.
Lemma manip_slope n L m f : (n = 2 \/ n = 3)%nat -> 1 <= L -> shrinks_by n L (m_stretch m) -> trans_ok n (m_trans m) -> (n = 2%nat -> exists a, m_rot m = (a, 0, 0)) ->
  slope_le n 1 f -> slope_le n L (fun x => f (manipulate n m x)).
Proof.
  intros N HL S T R2 F x y X Y. unfold manipulate. destruct (m_rot m) as ((a, b), c) eqn:RE.
  set (g1 := fun x : pt => match m_trans m with Some t => translate_back t x | None => x end). pose proof (iso_trans n (m_trans m) N T) as I1. fold g1 in I1.
  set (g2 := fun x => if Reqb a 0 then x else mat_vec (transpose2 (if Nat.eqb n 2 then rot2 a else rot_x a)) x).
  set (g3 := fun x => if Reqb b 0 then x else mat_vec (transpose2 (rot_y b)) x). set (g4 := fun x => if Reqb c 0 then x else mat_vec (transpose2 (rot_z c)) x).
  assert (I2 : isometry n g2) by (apply iso_if; destruct N as [-> | ->]; [apply iso_rot2|apply iso_rotx]).
  assert (I34 : isometry n g3 /\ isometry n g4).
  { destruct N as [-> | ->].
    - destruct (R2 eq_refl) as (a' & E). injection E as _ -> ->. unfold g3, g4, Reqb. destruct (Req_EM_T 0 0); [|contradiction]. split; apply iso_id.
    - split; apply iso_if; [apply iso_roty|apply iso_rotz]. }
  set (g := fun x => g4 (g3 (g2 (g1 x)))). assert (IG : isometry n g) by (apply (iso_comp n (fun x => g3 (g2 (g1 x))) g4); [apply (iso_comp n (fun x => g2 (g1 x)) g3); [apply (iso_comp n g1 g2); assumption|apply I34]|apply I34]).
  destruct (IG x y X Y) as (GX & GD). destruct (IG y x Y X) as (GY & _). set (h := fun x => match m_stretch m with Some v => scale_back (normalise v) (norm2 v) x | None => x end).
  destruct (stretch_contracts n L (m_stretch m) (g x) (g y) N HL S GX GY) as (HX & HD). destruct (stretch_contracts n L (m_stretch m) (g y) (g x) N HL S GY GX) as (HY & _).
  change (Rabs (f (h (g x)) - f (h (g y))) <= L * edist x y). change (length (h (g x)) = n) in HX. change (length (h (g y)) = n) in HY. change (edist (h (g x)) (h (g y)) <= L * edist (g x) (g y)) in HD.
  pose proof (F _ _ HX HY) as FF. unfold edist in HD at 2. rewrite GD in HD. fold (edist x y) in HD. lra.
Qed.

(** ---- solids ---- *)
Lemma slope_disk xc yc r : slope_le 2 1 (ddisk xc yc r).
Proof.
  intros x y X Y. destruct (len2 _ X) as (x1 & x2 & ->), (len2 _ Y) as (y1 & y2 & ->). pose proof (dist_slope [x1; x2] [y1; y2] [xc; yc] eq_refl eq_refl) as D. rewrite !edist2 in D. rewrite edist2.
  unfold ddisk. match goal with |- Rabs ?e <= _ => match type of D with Rabs ?e' <= _ => replace e with e' end end; [lra|]. unfold Rminus. ring_simplify. repeat f_equal; ring.
Qed.
Lemma slope_ball xc yc zc r : slope_le 3 1 (dball xc yc zc r).
Proof.
  intros x y X Y. destruct (len3 _ X) as (x1 & x2 & x3 & ->), (len3 _ Y) as (y1 & y2 & y3 & ->). pose proof (dist_slope [x1; x2; x3] [y1; y2; y3] [xc; yc; zc] eq_refl eq_refl) as D. rewrite !edist3 in D. rewrite edist3.
  unfold dball. match goal with |- Rabs (sqrt ?a - _ - (sqrt ?b - _)) <= _ => match type of D with Rabs (sqrt ?a' - sqrt ?b') <= _ => replace a with a' by ring; replace b with b' by ring end end. 
  match goal with |- Rabs ?e <= _ => match type of D with Rabs ?e' <= _ => replace e with e' by ring end end. lra.
Qed.
Lemma slope_rect x1 x2 y1 y2 : slope_le 2 1 (c_drectangle (fun t => t) x1 x2 y1 y2).
Proof.
  intros x y X Y. destruct (len2 _ X) as (a1 & a2 & ->), (len2 _ Y) as (b1 & b2 & ->). rewrite !rect_bd. rewrite Rmult_1_l. apply bd_lipschitz; repeat constructor.
Qed.
Lemma slope_block x1 x2 y1 y2 z1 z2 : slope_le 3 1 (c_dblock (fun t => t) x1 x2 y1 y2 z1 z2).
Proof.
  intros x y X Y. destruct (len3 _ X) as (a1 & a2 & a3 & ->), (len3 _ Y) as (b1 & b2 & b3 & ->). rewrite !block_bd. rewrite Rmult_1_l. apply bd_lipschitz; repeat constructor.
Qed.
Lemma length2 a b : length_ [a; b] = edist [a; b] [0; 0].
Proof. unfold length_. rewrite edist2. f_equal. cbn [map fold_right]. rewrite !pow2_abs. ring. Qed.
(** (x, y, z) -> (|xz|, y) *)
Lemma axis_map x1 x2 x3 y1 y2 y3 : edist [length_ [x1; x3]; x2] [length_ [y1; y3]; y2] <= edist [x1; x2; x3] [y1; y2; y3].
Proof.
  rewrite !length2. rewrite edist2, edist3. apply sqrt_le_1_alt. pose proof (dist_slope [x1; x3] [y1; y3] [0; 0] eq_refl eq_refl) as D.
  assert (Q : (edist [x1; x3] [0; 0] - edist [y1; y3] [0; 0]) ^ 2 <= edist [x1; x3] [y1; y3] ^ 2).
  { rewrite <- (pow2_abs (edist [x1; x3] [0; 0] - edist [y1; y3] [0; 0])). apply pow_incr. split; [apply Rabs_pos|exact D]. }
  rewrite edist_sq in Q. cbn [sqdist] in Q. lra.
Qed.
Lemma slope_torus r1 r2 : slope_le 3 1 (dtorus r1 r2).
Proof.
  intros x y X Y. destruct (len3 _ X) as (x1 & x2 & x3 & ->), (len3 _ Y) as (y1 & y2 & y3 & ->). unfold dtorus. pose proof (axis_map x1 x2 x3 y1 y2 y3) as A.
  set (l := length_ [x1; x3]) in *. set (m := length_ [y1; y3]) in *. rewrite !length2. pose proof (dist_slope [l; x2] [m; y2] [r1; 0] eq_refl eq_refl) as D. rewrite !edist2 in *. rewrite Rmult_1_l.
  replace ((l - r1 - 0) ^ 2) with ((l - r1) ^ 2) by ring. replace ((m - r1 - 0) ^ 2) with ((m - r1) ^ 2) by ring.
  match goal with |- Rabs ?e <= _ => match type of D with Rabs ?e' <= _ => replace e with e' by ring end end. lra.
Qed.
Lemma Rmax_slope a b c d M : Rabs (a - c) <= M -> Rabs (b - d) <= M -> Rabs (Rmax a b - Rmax c d) <= M.
Proof. intros H1 H2. apply Rabs_le_inv in H1. apply Rabs_le_inv in H2. apply Rabs_le. unfold Rmax. destruct (Rle_dec a b), (Rle_dec c d); lra. Qed.
Lemma Rmin_slope a b c d M : Rabs (a - c) <= M -> Rabs (b - d) <= M -> Rabs (Rmin a b - Rmin c d) <= M.
Proof. intros H1 H2. apply Rabs_le_inv in H1. apply Rabs_le_inv in H2. apply Rabs_le. unfold Rmin. destruct (Rle_dec a b), (Rle_dec c d); lra. Qed.
Lemma abs_slope a b : Rabs (Rabs a - Rabs b) <= Rabs (a - b).
Proof. apply Rabs_triang_inv2. Qed.
Lemma linear_bound a b c x y z E : a * a + b * b + c * c <= 1 -> 0 <= E -> x * x + y * y + z * z = E * E -> Rabs (a * x + b * y + c * z) <= E.
Proof.
  intros H1 H2 H3. apply Rabs_le. assert (Q : (a * x + b * y + c * z) * (a * x + b * y + c * z) <= E * E).
  { pose proof (Rle_0_sqr (a * y - b * x)). pose proof (Rle_0_sqr (a * z - c * x)). pose proof (Rle_0_sqr (b * z - c * y)). unfold Rsqr in *.
    assert (G : (a * x + b * y + c * z) * (a * x + b * y + c * z) <= (a * a + b * b + c * c) * (x * x + y * y + z * z)) by nra. rewrite H3 in G. pose proof (Rle_0_sqr E) as E2. unfold Rsqr in E2. pose proof (Rmult_le_compat_r (E * E) _ _ E2 H1). lra. }
  split; nra.
Qed.
Lemma slope_prism b h : slope_le 3 1 (dprism b h).
Proof.
  intros x y X Y. destruct (len3 _ X) as (x1 & x2 & x3 & ->), (len3 _ Y) as (y1 & y2 & y3 & ->). unfold dprism. rewrite Rmult_1_l. set (E := edist [x1; x2; x3] [y1; y2; y3]).
  assert (EP : 0 <= E) by apply edist_nonneg. assert (ES : (x1 - y1) * (x1 - y1) + (x2 - y2) * (x2 - y2) + (x3 - y3) * (x3 - y3) = E * E) by (pose proof (edist_sq [x1; x2; x3] [y1; y2; y3]) as Q; fold E in Q; cbn [sqdist] in Q; lra).
  pose proof (abs_slope x1 y1) as A1. pose proof (abs_slope x3 y3) as A3.
  assert (C : Rabs (x1 - y1) * Rabs (x1 - y1) = (x1 - y1) * (x1 - y1)) by (rewrite <- Rabs_mult; apply Rabs_pos_eq, Rle_0_sqr).
  apply Rmax_slope.
  - replace (Rabs x3 - h - (Rabs y3 - h)) with (Rabs x3 - Rabs y3) by ring. eapply Rle_trans; [exact A3|]. pose proof (linear_bound 0 0 1 (x1 - y1) (x2 - y2) (x3 - y3) E ltac:(lra) EP ES) as L. replace (0 * (x1 - y1) + 0 * (x2 - y2) + 1 * (x3 - y3)) with (x3 - y3) in L by ring. exact L.
  - match goal with |- Rabs (Rmax ?p ?q - ?k - (Rmax ?r ?s - ?k)) <= _ => replace (Rmax p q - k - (Rmax r s - k)) with (Rmax p q - Rmax r s) by ring end. apply Rmax_slope.
    + pose proof (linear_bound (866025 / 1000000) (5 / 10) 0 (Rabs (x1 - y1)) (Rabs (x2 - y2)) (x3 - y3) E ltac:(lra) EP) as L. rewrite C in L.
      assert (C2 : Rabs (x2 - y2) * Rabs (x2 - y2) = (x2 - y2) * (x2 - y2)) by (rewrite <- Rabs_mult; apply Rabs_pos_eq, Rle_0_sqr). rewrite C2 in L. specialize (L ES). apply Rabs_le_inv in L.
      apply Rabs_le_inv in A1. pose proof (Rle_abs (x2 - y2)) as B1. pose proof (Rle_abs (- (x2 - y2))) as B2. rewrite Rabs_Ropp in B2. apply Rabs_le. lra.
    + pose proof (linear_bound 0 (-1) 0 (x1 - y1) (x2 - y2) (x3 - y3) E ltac:(lra) EP ES) as L. replace (0 * (x1 - y1) + -1 * (x2 - y2) + 0 * (x3 - y3)) with (- x2 - - y2) in L by ring. exact L.
Qed.
(** the distance to a quadrant *)
Definition quad (d0 d1 : R) : R := Rmin (Rmax d0 d1) 0 + length_ [Rmax d0 0; Rmax d1 0].
Lemma quad_above u0 u1 d0 d1 : 0 <= u0 -> 0 <= u1 -> u0 * u0 + u1 * u1 = 1 -> u0 * d0 + u1 * d1 <= quad d0 d1.
Proof.
  intros H0 H1 U. unfold quad. rewrite length2. assert (CS : u0 * Rmax d0 0 + u1 * Rmax d1 0 <= edist [Rmax d0 0; Rmax d1 0] [0; 0]).
  { pose proof (edist_nonneg [Rmax d0 0; Rmax d1 0] [0; 0]) as EP. pose proof (edist_sq [Rmax d0 0; Rmax d1 0] [0; 0]) as ES. cbn [sqdist] in ES.
    pose proof (linear_bound u0 u1 0 (Rmax d0 0) (Rmax d1 0) 0 _ ltac:(lra) EP ltac:(lra)) as L. apply Rabs_le_inv in L. lra. }
  assert (S1 : 1 <= u0 + u1) by nra. pose proof (Rmax_l d0 0). pose proof (Rmax_l d1 0). pose proof (Rmax_r d0 0). pose proof (Rmax_r d1 0).
  destruct (Rle_or_lt (Rmax d0 d1) 0) as [M|M].
  - rewrite Rmin_left by exact M. pose proof (Rmax_l d0 d1). pose proof (Rmax_r d0 d1). pose proof (edist_nonneg [Rmax d0 0; Rmax d1 0] [0; 0]). nra.
  - rewrite Rmin_right by lra. nra.
Qed.
Lemma quad_attained d0 d1 : exists u0 u1, 0 <= u0 /\ 0 <= u1 /\ u0 * u0 + u1 * u1 = 1 /\ quad d0 d1 = u0 * d0 + u1 * d1.
Proof.
  unfold quad. rewrite length2. destruct (Rle_or_lt (Rmax d0 d1) 0) as [M|M].
  - rewrite Rmin_left by exact M. pose proof (Rmax_l d0 d1). pose proof (Rmax_r d0 d1). rewrite (Rmax_right d0 0), (Rmax_right d1 0) by lra.
    assert (Z : edist [0; 0] [0; 0] = 0) by (unfold edist; rewrite sqdist_refl; apply sqrt_0). rewrite Z.
    unfold Rmax. destruct (Rle_dec d0 d1); [exists 0, 1|exists 1, 0]; repeat split; lra.
  - rewrite Rmin_right by lra. set (E := edist [Rmax d0 0; Rmax d1 0] [0; 0]). pose proof (edist_sq [Rmax d0 0; Rmax d1 0] [0; 0]) as ES. fold E in ES. cbn [sqdist] in ES. pose proof (edist_nonneg [Rmax d0 0; Rmax d1 0] [0; 0]) as EP. fold E in EP.
    pose proof (Rmax_r d0 0) as P0. pose proof (Rmax_r d1 0) as P1.
    assert (EQ : E * E = Rmax d0 0 * Rmax d0 0 + Rmax d1 0 * Rmax d1 0) by lra. assert (E0 : 0 < E).
    { assert (0 < Rmax d0 0 \/ 0 < Rmax d1 0) as [Q|Q] by (unfold Rmax in M |- *; destruct (Rle_dec d0 d1), (Rle_dec d0 0), (Rle_dec d1 0); lra); nra. }
    exists (Rmax d0 0 / E), (Rmax d1 0 / E). assert (I : 0 < / E) by (apply Rinv_0_lt_compat, E0).
    split; [unfold Rdiv; nra|]. split; [unfold Rdiv; nra|]. split; [transitivity ((Rmax d0 0 * Rmax d0 0 + Rmax d1 0 * Rmax d1 0) / (E * E)); [field; lra|rewrite <- EQ; field; lra]|].
    assert (T : Rmax d0 0 * d0 + Rmax d1 0 * d1 = E * E). { rewrite EQ. unfold Rmax. destruct (Rle_dec d0 0), (Rle_dec d1 0); ring. }
    rewrite Rplus_0_l. transitivity ((Rmax d0 0 * d0 + Rmax d1 0 * d1) / E); [rewrite T; field; lra|field; lra].
Qed.
Lemma quad_slope a b c d : quad a b - quad c d <= edist [a; b] [c; d].
Proof.
  destruct (quad_attained a b) as (u0 & u1 & H0 & H1 & U & ->). pose proof (quad_above u0 u1 c d H0 H1 U) as Q. pose proof (edist_nonneg [a; b] [c; d]) as EP. pose proof (edist_sq [a; b] [c; d]) as ES. cbn [sqdist] in ES.
  pose proof (linear_bound u0 u1 0 (a - c) (b - d) 0 _ ltac:(lra) EP ltac:(lra)) as L. apply Rabs_le_inv in L. lra.
Qed.
Lemma slope_cylinder hh r : slope_le 3 1 (dcylinder hh r).
Proof.
  intros x y X Y. destruct (len3 _ X) as (x1 & x2 & x3 & ->), (len3 _ Y) as (y1 & y2 & y3 & ->). unfold dcylinder. rewrite Rmult_1_l.
  change (Rabs (quad (Rabs (length_ [x1; x3]) - r) (Rabs x2 - hh) - quad (Rabs (length_ [y1; y3]) - r) (Rabs y2 - hh)) <= edist [x1; x2; x3] [y1; y2; y3]).
  pose proof (axis_map x1 x2 x3 y1 y2 y3) as A. set (l := length_ [x1; x3]) in *. set (m := length_ [y1; y3]) in *.
  assert (G : edist [Rabs l - r; Rabs x2 - hh] [Rabs m - r; Rabs y2 - hh] <= edist [l; x2] [m; y2]).
  { rewrite !edist2. apply sqrt_le_1_alt. assert (SQ : forall s t k, (Rabs s - k - (Rabs t - k)) ^ 2 <= (s - t) ^ 2).
    { intros s t k. replace (Rabs s - k - (Rabs t - k)) with (Rabs s - Rabs t) by ring. rewrite <- (pow2_abs (s - t)), <- (pow2_abs (Rabs s - Rabs t)). apply pow_incr. split; [apply Rabs_pos|apply abs_slope]. }
    pose proof (SQ l m r). pose proof (SQ x2 y2 hh). lra. }
  pose proof (quad_slope (Rabs l - r) (Rabs x2 - hh) (Rabs m - r) (Rabs y2 - hh)) as Q1. pose proof (quad_slope (Rabs m - r) (Rabs y2 - hh) (Rabs l - r) (Rabs x2 - hh)) as Q2. rewrite (edist_sym [Rabs m - r; _]) in Q2. apply Rabs_le. lra.
Qed.

(** ---- smooth minimum: the least of t a + (1 - t) b - k t (1 - t) ---- *)
Lemma smin_below k a b t : 0 < k -> 0 <= t <= 1 -> smooth_union k a b <= t * a + (1 - t) * b - k * t * (1 - t).
Proof.
  intros K T. unfold smooth_union. destruct (Rle_or_lt k (Rabs (a - b))) as [M|M].
  - rewrite (Rmax_right (k - Rabs (a - b))) by lra. replace (0 * 0 * (1 / 4) / k) with 0 by (field; lra). unfold Rmin. destruct (Rle_dec a b) as [Q|Q]; [rewrite Rabs_left1 in M by lra|rewrite Rabs_pos_eq in M by lra].
    + pose proof (Rmult_le_compat_l (1 - t) _ _ ltac:(lra) M). assert (0 <= (1 - t) * (1 - t) * k) by (apply Rmult_le_pos; [apply Rle_0_sqr|lra]). nra.
    + pose proof (Rmult_le_compat_l t _ _ ltac:(lra) M). assert (0 <= t * t * k) by (apply Rmult_le_pos; [apply Rle_0_sqr|lra]). nra.
  - rewrite (Rmax_left (k - Rabs (a - b))) by lra.
    assert (E : Rmin a b - (k - Rabs (a - b)) * (k - Rabs (a - b)) * (1 / 4) / k = t * a + (1 - t) * b - k * t * (1 - t) - k * ((t - 1 / 2 + (a - b) / (2 * k)) * (t - 1 / 2 + (a - b) / (2 * k)))).
    { unfold Rmin. destruct (Rle_dec a b) as [Q|Q]; [rewrite (Rabs_left1 (a - b)) by lra|rewrite (Rabs_pos_eq (a - b)) by lra]; field; lra. }
    rewrite E. pose proof (Rle_0_sqr (t - 1 / 2 + (a - b) / (2 * k))) as Q. unfold Rsqr in Q. nra.
Qed.
Lemma smin_attained k a b : 0 < k -> exists t, 0 <= t <= 1 /\ smooth_union k a b = t * a + (1 - t) * b - k * t * (1 - t).
Proof.
  intros K. unfold smooth_union. destruct (Rle_or_lt k (Rabs (a - b))) as [M|M].
  - rewrite (Rmax_right (k - Rabs (a - b))) by lra. replace (0 * 0 * (1 / 4) / k) with 0 by (field; lra). unfold Rmin. destruct (Rle_dec a b); [exists 1|exists 0]; (split; [lra|ring]).
  - rewrite (Rmax_left (k - Rabs (a - b))) by lra. exists (1 / 2 - (a - b) / (2 * k)). apply Rabs_def2 in M. split.
    + assert (-1 <= (a - b) / k <= 1). { split; [apply (Rmult_le_reg_r k); [lra|]; unfold Rdiv; rewrite Rmult_assoc, Rinv_l by lra; lra|apply (Rmult_le_reg_r k); [lra|]; unfold Rdiv; rewrite Rmult_assoc, Rinv_l by lra; lra]. }
      replace ((a - b) / (2 * k)) with (1 / 2 * ((a - b) / k)) by (field; lra). lra.
    + unfold Rmin. destruct (Rle_dec a b) as [Q|Q]; [rewrite (Rabs_left1 (a - b)) by lra|rewrite (Rabs_pos_eq (a - b)) by lra]; field; lra.
Qed.
Lemma smin_slope k a b c d M : 0 < k -> Rabs (a - c) <= M -> Rabs (b - d) <= M -> Rabs (smooth_union k a b - smooth_union k c d) <= M.
Proof.
  intros K H1 H2. apply Rabs_le_inv in H1. apply Rabs_le_inv in H2. destruct (smin_attained k a b K) as (t & T & E1). destruct (smin_attained k c d K) as (s & S & E2).
  pose proof (smin_below k c d t K T). pose proof (smin_below k a b s K S). apply Rabs_le. nra.
Qed.
Lemma smax_min k a b : smooth_intersection k a b = - smooth_union k (- a) (- b).
Proof.
  unfold smooth_intersection, smooth_union. replace (- a - - b) with (- (a - b)) by ring. rewrite Rabs_Ropp. assert (Rmin (- a) (- b) = - Rmax a b) as -> by (unfold Rmin, Rmax; destruct (Rle_dec (- a) (- b)), (Rle_dec a b); lra). ring.
Qed.
Lemma smax_slope k a b c d M : 0 < k -> Rabs (a - c) <= M -> Rabs (b - d) <= M -> Rabs (smooth_intersection k a b - smooth_intersection k c d) <= M.
Proof.
  intros K H1 H2. rewrite !smax_min. replace (- smooth_union k (- a) (- b) - - smooth_union k (- c) (- d)) with (- (smooth_union k (- a) (- b) - smooth_union k (- c) (- d))) by ring. rewrite Rabs_Ropp.
  apply smin_slope; [exact K| |]; [replace (- a - - c) with (- (a - c)) by ring|replace (- b - - d) with (- (b - d)) by ring]; rewrite Rabs_Ropp; assumption.
Qed.
Lemma sdiff_slope k a b c d M : 0 < k -> Rabs (a - c) <= M -> Rabs (b - d) <= M -> Rabs (smooth_difference k a b - smooth_difference k c d) <= M.
Proof.
  intros K H1 H2. change (smooth_difference k a b) with (smooth_intersection k (- a) b). change (smooth_difference k c d) with (smooth_intersection k (- c) d). apply smax_slope; [exact K| |exact H2].
  replace (- a - - c) with (- (a - c)) by ring. rewrite Rabs_Ropp. exact H1.
Qed.
Lemma reduce_slope f M l m : (forall a b c d, Rabs (a - c) <= M -> Rabs (b - d) <= M -> Rabs (f a b - f c d) <= M) -> l <> [] -> Forall2 (fun a c => Rabs (a - c) <= M) l m -> Rabs (reduce_ f l - reduce_ f m) <= M.
Proof.
  intros F N H. destruct H as [|a c l m H H']; [contradiction|]. clear N. cbn [reduce_]. revert a c H. induction H' as [|b d l m H1 H2 IH]; intros a c H; cbn [fold_left]; [exact H|]. apply IH, F; assumption.
Qed.
Lemma map_slope (ds : list domain) x y M : (forall e, In e ds -> Rabs (d_eval e x - d_eval e y) <= M) -> Forall2 (fun a c => Rabs (a - c) <= M) (map (fun d => d_eval d x) ds) (map (fun d => d_eval d y) ds).
Proof. induction ds as [|d ds IH]; intros H; cbn; constructor; [apply H; left; reflexivity|apply IH; intros e I; apply H; right; exact I]. Qed.
Lemma set_init_ok ev ds d : set_init ev ds = Ok d -> ds <> [] /\ d_eval d = ev ds.
Proof.
  unfold set_init. destruct ds as [|d0 ds]; [discriminate|]. cbn [dims_guard]. intros H. split; [discriminate|]. destruct (set_bbox _ _ _); cbn [rbind] in H; [|discriminate]. injection H as <-. reflexivity.
Qed.
Lemma rev_nil {A} (l : list A) : l <> [] -> rev l <> [].
Proof. intros H E. apply H. rewrite <- (rev_involutive l), E. reflexivity. Qed.
Lemma Forall2_rev' {A B} (P : A -> B -> Prop) l m : Forall2 P l m -> Forall2 P (rev l) (rev m).
Proof. induction 1 as [|a b l m H H' IH]; cbn; [constructor|]. apply Forall2_app; [exact IH|]. constructor; [exact H|constructor]. Qed.
Lemma union_slope k l m M : 0 <= k -> l <> [] -> Forall2 (fun a c => Rabs (a - c) <= M) l m -> Rabs (union_vals k l - union_vals k m) <= M.
Proof. intros K N H. unfold union_vals, Reqb. destruct (Req_EM_T k 0); apply reduce_slope; try assumption; intros; [apply Rmin_slope|apply smin_slope]; try assumption. lra. Qed.
Lemma intersection_slope k l m M : 0 <= k -> l <> [] -> Forall2 (fun a c => Rabs (a - c) <= M) l m -> Rabs (intersection_vals k l - intersection_vals k m) <= M.
Proof. intros K N H. unfold intersection_vals, Reqb. destruct (Req_EM_T k 0); apply reduce_slope; try assumption; intros; [apply Rmax_slope|apply smax_slope]; try assumption. lra. Qed.
Lemma difference_slope k l m M : 0 <= k -> l <> [] -> Forall2 (fun a c => Rabs (a - c) <= M) l m -> Rabs (difference_vals k l - difference_vals k m) <= M.
Proof.
  intros K N H. unfold difference_vals, Reqb. destruct (Req_EM_T k 0).
  - apply reduce_slope; [intros; apply Rmax_slope; assumption|destruct l; [contradiction|discriminate]|]. destruct H as [|a c l m H H']; constructor; [exact H|]. induction H' as [|b d l m H1 H2 IH]; cbn; constructor; [|apply IH; discriminate].
    replace (- b - - d) with (- (b - d)) by ring. rewrite Rabs_Ropp. exact H1.
  - apply reduce_slope; [intros; apply sdiff_slope; try assumption; lra|apply rev_nil, N|apply Forall2_rev', H].
Qed.
(** folding: the distance to the nearest multiple of the period *)
Lemma fold_range x p : 0 < p -> exists m : Z, fold_coord x p = x - p * IZR m /\ - (p / 2) <= fold_coord x p < p / 2.
Proof.
  intros P. unfold fold_coord, np_mod. exists (Int_part ((x + 5 / 10 * p) / p)). destruct (base_Int_part ((x + 5 / 10 * p) / p)) as (B1 & B2). set (k := IZR (Int_part ((x + 5 / 10 * p) / p))) in *. split; [field|].
  assert (Q : (x + 5 / 10 * p) / p * p = x + 5 / 10 * p) by (field; lra). pose proof (Rmult_le_compat_r p _ _ ltac:(lra) B1) as C1. assert (C2 : ((x + 5 / 10 * p) / p - k) * p < 1 * p) by (apply Rmult_lt_compat_r; lra || (apply Rmult_lt_compat_r; [lra|lra])). 
  rewrite Q in C1. rewrite Rmult_minus_distr_r, Q in C2. lra.
Qed.
Lemma fold_nearest x p m : 0 < p -> Rabs (fold_coord x p) <= Rabs (x - p * IZR m).
Proof.
  intros P. destruct (fold_range x p P) as (k & E & L1 & L2). assert (D : (m = k \/ m <= k - 1 \/ k + 1 <= m)%Z) by lia. destruct D as [-> | D]; [rewrite <- E; lra|].
  assert (Q : IZR m <= IZR k - 1 \/ IZR k + 1 <= IZR m) by (destruct D as [D|D]; [left; rewrite <- minus_IZR|right; rewrite <- plus_IZR]; apply IZR_le; exact D).
  set (q := fold_coord x p) in *. assert (X : x - p * IZR m = q + p * (IZR k - IZR m)) by lra. rewrite X.
  assert (A : Rabs q <= p / 2) by (apply Rabs_le; lra). eapply Rle_trans; [exact A|]. destruct Q as [Q|Q].
  - pose proof (Rle_abs (q + p * (IZR k - IZR m))). nra.
  - pose proof (Rle_abs (- (q + p * (IZR k - IZR m)))) as W. rewrite Rabs_Ropp in W. nra.
Qed.
Lemma fold_slope x y p : 0 < p -> Rabs (Rabs (fold_coord x p) - Rabs (fold_coord y p)) <= Rabs (x - y).
Proof.
  intros P. assert (G : forall a b, Rabs (fold_coord a p) <= Rabs (a - b) + Rabs (fold_coord b p)).
  { intros a b. destruct (fold_range b p P) as (k & E & _). eapply Rle_trans; [apply (fold_nearest a p k P)|]. rewrite E. replace (a - p * IZR k) with ((a - b) + (b - p * IZR k)) by ring. apply Rabs_triang. }
  pose proof (G x y). pose proof (G y x). rewrite (Rabs_minus_sym y x) in *. apply Rabs_le. lra.
Qed.
Lemma solid_slope L n d : 1 <= L -> solid L n d -> slope_le n L (d_eval d).
Proof.
  intros HL S. induction S.
  - apply (manip_slope 2 L (manip2 s a t) (ddisk xc yc r)); auto; [intros _; exists a; reflexivity|apply slope_disk].
  - apply (manip_slope 2 L (manip2 s a t)); auto; [intros _; exists a; reflexivity|apply slope_rect].
  - apply (manip_slope 3 L (manip3 s a b c t)); auto; [discriminate|apply slope_ball].
  - apply (manip_slope 3 L (manip3 s a b c t)); auto; [discriminate|apply slope_block].
  - apply (manip_slope 3 L (manip3 s a b c t)); auto; [discriminate|apply slope_torus].
  - apply (manip_slope 3 L (manip3 s a b c t)); auto; [discriminate|apply slope_prism].
  - apply (manip_slope 3 L (manip3 s a b c t)); auto; [discriminate|apply slope_cylinder].
  - destruct (set_init_ok _ _ _ H2) as (N & ->). intros x y X Y. apply union_slope; [assumption|destruct ds; [contradiction|discriminate]|]. apply map_slope. intros e I. apply (H1 e I x y X Y).
  - destruct (set_init_ok _ _ _ H2) as (N & ->). intros x y X Y. apply intersection_slope; [assumption|destruct ds; [contradiction|discriminate]|]. apply map_slope. intros e I. apply (H1 e I x y X Y).
  - destruct (set_init_ok _ _ _ H2) as (N & ->). intros x y X Y. apply difference_slope; [assumption|destruct ds; [contradiction|discriminate]|]. apply map_slope. intros e I. apply (H1 e I x y X Y).
  - intros x y X Y. cbn [Repeat d_eval]. unfold repeat_eval. apply Rmax_slope.
    + destruct (len3 _ X) as (a1 & a2 & a3 & ->), (len3 _ Y) as (b1 & b2 & b3 & ->). cbn [map2 combine map]. rewrite H, (H (fold_coord b1 px)). unfold map2. cbn [combine map fst snd]. eapply Rle_trans; [apply IHS; reflexivity|]. apply Rmult_le_compat_l; [lra|]. rewrite !edist3. apply sqrt_le_1_alt.
      assert (SQ : forall s t p, 0 < p -> (Rabs (fold_coord s p) - Rabs (fold_coord t p)) ^ 2 <= (s - t) ^ 2).
      { intros s t p P. rewrite <- (pow2_abs (s - t)), <- (pow2_abs (Rabs _ - Rabs _)). apply pow_incr. split; [apply Rabs_pos|apply fold_slope, P]. }
      pose proof (SQ a1 b1 px H0). pose proof (SQ a2 b2 py H1). pose proof (SQ a3 b3 pz H2). lra.
    + eapply Rle_trans; [apply slope_block; assumption|]. apply Rmult_le_compat_r; [apply edist_nonneg|exact HL].
Qed.
