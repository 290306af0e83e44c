(** Smoothing and affine maps (C124) *)
From Coq Require Import List ZArith Reals Bool Arith Lia Lra.
From Verif Require Import Model.Base Model.SDF Model.Simplex Model.Mesh Model.Laplace Spec.MeshTopo Spec.Smooth Spec.Affine
  Proofs.ListAux Proofs.MeshAux Proofs.EdgeProofs Proofs.TopoProofs Proofs.LaplaceProofs Proofs.LaplaceFixed Proofs.ConvergeProofs.
Import ListNotations.
Local Open Scope R_scope.

Lemma moved_len m x : length (moved_by m x) = length x.
Proof. destruct x as [|u [|w [|]]]; reflexivity. Qed.
Lemma moved_nth m p v : nth v (map (moved_by m) p) [] = moved_by m (nth v p []).
Proof. change (@nil R) with (moved_by m []) at 1. apply map_nth. Qed.
Lemma moved_0 m x : length x = 2%nat -> nth 0 (moved_by m x) 0 = ma m * nth 0 x 0 + mb m * nth 1 x 0 + me m.
Proof. destruct x as [|u [|w [|]]]; try discriminate. reflexivity. Qed.
Lemma moved_1 m x : length x = 2%nat -> nth 1 (moved_by m x) 0 = mc m * nth 0 x 0 + md m * nth 1 x 0 + mf m.
Proof. destruct x as [|u [|w [|]]]; try discriminate. reflexivity. Qed.
Lemma rows2_moved m p : (forall x, In x p -> length x = 2%nat) -> forall x, In x (map (moved_by m) p) -> length x = 2%nat.
Proof. intros H x Hx. apply in_map_iff in Hx. destruct Hx as [y [<- Hy]]. rewrite moved_len. apply H, Hy. Qed.
Lemma rtotal_lin a b e (g h : nat -> R) l : rtotal (map (fun u => a * g u + b * h u + e) l) = a * rtotal (map g l) + b * rtotal (map h l) + e * INR (length l).
Proof. induction l as [|x l IH]; [cbn; ring|]. cbn [map rtotal fold_right length]. fold (rtotal (map (fun u => a * g u + b * h u + e) l)) (rtotal (map g l)) (rtotal (map h l)). rewrite IH, S_INR. ring. Qed.
Lemma nbrs_valid n t v u : valid n t -> triangles t -> In u (nbrs t v) -> (u < n)%nat.
Proof.
  intros HV HT H. unfold nbrs in H. apply in_map_iff in H. destruct H as [[a b] [<- H]]. apply filter_In in H. destruct H as [H _]. cbn.
  unfold adj_entries in H. apply in_flat_map in H. destruct H as [r [Hr H]]. apply in_map_iff in H. destruct H as [[i j] [E Hij]]. inversion E; subst.
  apply (HV r); [exact Hr|]. apply nth_In. rewrite (proj1 (HT r Hr)). cbn in Hij. repeat (destruct Hij as [K|Hij]; [inversion K; cbn; lia|]). destruct Hij.
Qed.
Lemma sweep_moved m t fx p : triangles t -> valid (length p) t -> (forall x, In x p -> length x = 2%nat) -> (forall v, (v < length p)%nat -> exists r, In r t /\ In v r) ->
  lap_sweep t fx (map (moved_by m) p) = map (moved_by m) (lap_sweep t fx p).
Proof.
  intros HT HV HP U. unfold lap_sweep. rewrite map_length, map_map. apply map_ext_in. intros v Hv. apply in_seq in Hv.
  destruct (existsb (Nat.eqb v) fx); [apply moved_nth|].
  assert (forall u, In u (nbrs t v) -> length (nth u p []) = 2%nat) as L2.
  { intros u Hu. apply HP, nth_In. apply (nbrs_valid _ t v); assumption. }
  pose proof (proj1 (nbrs_used t v HT) (U v ltac:(lia))) as NZ. assert (INR (length (nbrs t v)) <> 0) as NR by (apply not_0_INR, NZ).
  cbn [map moved_by].
  rewrite (map_ext_in (fun u => nth 0 (nth u (map (moved_by m) p) []) 0) (fun u => ma m * nth 0 (nth u p []) 0 + mb m * nth 1 (nth u p []) 0 + me m))
    by (intros u Hu; rewrite moved_nth; apply moved_0, L2, Hu).
  rewrite (map_ext_in (fun u => nth 1 (nth u (map (moved_by m) p) []) 0) (fun u => mc m * nth 0 (nth u p []) 0 + md m * nth 1 (nth u p []) 0 + mf m))
    by (intros u Hu; rewrite moved_nth; apply moved_1, L2, Hu).
  rewrite !rtotal_lin. f_equal; [field; exact NR|]. f_equal. field. exact NR.
Qed.
(** isometries *)
Lemma sub_len_iso m x y : isometry m -> length x = 2%nat -> length y = 2%nat -> sub_len (moved_by m x) (moved_by m y) = sub_len x y.
Proof.
  intros [I1 [I2 I3]] Hx Hy. rewrite !sub_len_gap by (rewrite ?moved_len; assumption). f_equal. unfold gap2. rewrite !moved_0, !moved_1 by assumption.
  set (u := nth 0 x 0). set (u' := nth 0 y 0). set (w := nth 1 x 0). set (w' := nth 1 y 0).
  transitivity ((ma m * ma m + mc m * mc m) * (u - u') ^ 2 + (mb m * mb m + md m * md m) * (w - w') ^ 2 + 2 * (ma m * mb m + mc m * md m) * ((u - u') * (w - w'))); [ring|].
  rewrite I1, I2, I3. ring.
Qed.
Lemma sq2_iso m x y : isometry m -> length x = 2%nat -> length y = 2%nat -> sq2 (moved_by m x) (moved_by m y) = sq2 x y.
Proof.
  intros I Hx Hy. pose proof (sub_len_iso m x y I Hx Hy) as H. rewrite !sub_len_gap in H by (rewrite ?moved_len; assumption).
  rewrite !sq2_gap2 by (rewrite ?moved_len; assumption). apply sqrt_inj; try exact H; unfold gap2; apply Rplus_le_le_0_compat; apply pow2_ge_0.
Qed.
Lemma closest_iso m q p : isometry m -> length q = 2%nat -> (forall x, In x p -> length x = 2%nat) ->
  closest_node (moved_by m q) (map (moved_by m) p) = closest_node q p.
Proof. intros I Hq HP. unfold closest_node. rewrite map_map. f_equal. apply map_ext_in. intros x Hx. apply sq2_iso; auto. Qed.
Lemma edge_lens_iso m t p : isometry m -> triangles t -> valid (length p) t -> (forall x, In x p -> length x = 2%nat) ->
  edge_lens (get_edges 2 t) (map (moved_by m) p) = edge_lens (get_edges 2 t) p.
Proof.
  intros I HT HV HP. unfold edge_lens. apply map_ext_in. intros e He.
  destruct (proj1 (get_edges_complete 2 t (or_introl eq_refl) (fun r Hr => proj1 (HT r Hr))) e He) as [r [a [b [Hr [[i [j [Li [Lj [_ [<- <-]]]]]] ->]]]]]. cbn [nth].
  rewrite !moved_nth, sub_len_iso; [reflexivity|exact I|..]; apply HP, nth_In, (HV r); try assumption; apply nth_In; assumption.
Qed.
Lemma loop_iso m t fx tol : isometry m -> triangles t -> forall k L p, valid (length p) t -> (forall x, In x p -> length x = 2%nat) ->
  (forall v, (v < length p)%nat -> exists r, In r t /\ In v r) ->
  lap_loop k t fx (get_edges 2 t) tol L (map (moved_by m) p) = map (moved_by m) (lap_loop k t fx (get_edges 2 t) tol L p).
Proof.
  intros I HT. induction k as [|k IH]; intros L p HV HP U; [reflexivity|]. cbn [lap_loop].
  assert (valid (length (lap_sweep t fx p)) t) as HV' by (rewrite sweep_length; exact HV).
  pose proof (sweep_rows2 t fx p HP) as HP'.
  rewrite sweep_moved, edge_lens_iso by assumption.
  destruct (Rltb _ tol); [reflexivity|]. apply IH; [exact HV'|exact HP'|]. rewrite sweep_length. exact U.
Qed.
(** affine maps, no stopping *)
Lemma loop_free m t fx es tol a b : triangles t -> tol <= 0 -> In [a; b] es -> In a fx -> In b fx -> forall k p, valid (length p) t -> (a < length p)%nat -> (b < length p)%nat ->
  (forall x, In x p -> length x = 2%nat) -> (forall v, (v < length p)%nat -> exists r, In r t /\ In v r) ->
  lap_loop k t fx es tol (edge_lens es (map (moved_by m) p)) (map (moved_by m) p) = map (moved_by m) (lap_loop k t fx es tol (edge_lens es p) p).
Proof.
  intros HT T IE Fa Fb. induction k as [|k IH]; intros p HV La Lb HP U; [reflexivity|]. cbn [lap_loop].
  assert (forall q v, (v < length q)%nat -> In v fx -> nth v (lap_sweep t fx q) [] = nth v q []) as FX.
  { intros q v Lv Hv. rewrite sweep_nth by exact Lv. rewrite (proj2 (mem_fixed v fx) Hv). reflexivity. }
  rewrite (no_stop es tol p (lap_sweep t fx p) a b T IE) by (apply FX; assumption).
  rewrite (no_stop es tol (map (moved_by m) p) (lap_sweep t fx (map (moved_by m) p)) a b T IE) by (apply FX; rewrite ?map_length; assumption).
  rewrite sweep_moved by assumption. apply IH; rewrite ?sweep_length; try assumption. apply sweep_rows2, HP.
Qed.
(** the system *)
Lemma coo_row_total n t v e : triangles t -> valid n t -> rtotal (map (fun u => coo_at t v u * e) (seq 0 n)) = 0.
Proof.
  intros HT HV. rewrite rtotal_seq. pose proof (coo_row n t v (fun _ => e) HT HV) as H. rewrite H.
  rewrite (sum_ext n (fun u => links t v u * e) (fun u => e * links t v u)) by (intros; ring). rewrite sum_scal. ring.
Qed.
Lemma identity_row n v f : (v < n)%nat -> rtotal (map (fun u => (if (v =? u)%nat then 1 else 0) * f u) (seq 0 n)) = f v.
Proof.
  intros L. rewrite rtotal_seq, <- (sum_delta n v f L). apply sum_ext. intros u _. rewrite Nat.eqb_sym. reflexivity.
Qed.
Lemma solves_moved m uniq p t x : triangles t -> valid (length p) t -> (forall y, In y p -> length y = 2%nat) -> (forall y, In y x -> length y = 2%nat) ->
  lap_solves uniq p t x -> lap_solves uniq (map (moved_by m) p) t (map (moved_by m) x).
Proof.
  intros HT HV HP HX [LX HS]. split; [rewrite !map_length; exact LX|]. rewrite !map_length. intros v j Lv Lj.
  assert (forall u, (u < length p)%nat -> length (nth u x []) = 2%nat) as X2 by (intros u Lu; apply HX, nth_In; lia).
  assert (length (nth v p []) = 2%nat) as P2 by (apply HP, nth_In, Lv).
  pose proof (HS v 0%nat Lv ltac:(lia)) as H0. pose proof (HS v 1%nat Lv ltac:(lia)) as H1. unfold lap_matrix, lap_rhs in *.
  destruct (existsb (Nat.eqb v) (get_boundary_vertices uniq 2 t)).
  - rewrite identity_row in * by exact Lv. rewrite !moved_nth.
    destruct j as [|[|j]]; [rewrite !moved_0|rewrite !moved_1|lia]; auto; rewrite H0, H1; reflexivity.
  - assert (forall a b e, rtotal (map (fun u => coo_at t v u * (a * nth 0 (nth u x []) 0 + b * nth 1 (nth u x []) 0 + e)) (seq 0 (length p))) = 0) as K.
    { intros a b e. pose proof (coo_row_total (length p) t v e HT HV) as HE. rewrite rtotal_seq in *.
      rewrite (sum_ext _ _ (fun u => (a * (coo_at t v u * nth 0 (nth u x []) 0) + b * (coo_at t v u * nth 1 (nth u x []) 0)) + coo_at t v u * e)) by (intros; ring).
      rewrite !sum_plus, !sum_scal, H0, H1, HE. ring. }
    destruct j as [|[|j]]; [| |lia].
    + refine (eq_trans _ (K (ma m) (mb m) (me m))). f_equal. apply map_ext_in. intros u Hu. apply in_seq in Hu. rewrite moved_nth, moved_0; [reflexivity|apply X2; lia].
    + refine (eq_trans _ (K (mc m) (md m) (mf m))). f_equal. apply map_ext_in. intros u Hu. apply in_seq in Hu. rewrite moved_nth, moved_1; [reflexivity|apply X2; lia].
Qed.
