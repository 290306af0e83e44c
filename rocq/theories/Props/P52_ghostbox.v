(** C117: after the ghost exchange a rank holds every point, of whatever rank, that lies in its padded box. *)
From Coq Require Import List ZArith Reals Bool Arith Lia Lra Sorted.
From Verif Require Import Model.Base Model.SDF Model.Simplex Model.MPI Model.Migration Model.WhereTo Model.Generator Model.Parallel Spec.Linear Spec.Export Spec.Lockstep Spec.GhostBox
  Proofs.ListAux Proofs.MeshAux Proofs.WhereToProofs Proofs.ExportTable Proofs.ExportMain Proofs.CircumProofs Props.P12_ghosts Props.P25_parallel Props.P33_links.
Import ListNotations.
Local Open Scope nat_scope.

Lemma circ_plane s : simplex_points 2 s -> simp_vol s <> 0%R -> exists c r, circumscribed s c r.
Proof.
  intros (L & F) V. destruct s as [|a [|b [|e [|]]]]; try discriminate L. apply Forall_cons_iff in F as (A & F). apply Forall_cons_iff in F as (B & F). apply Forall_cons_iff in F as (E & _).
  destruct a as [|x0 [|y0 [|]]]; try discriminate A. destruct b as [|x1 [|y1 [|]]]; try discriminate B. destruct e as [|x2 [|y2 [|]]]; try discriminate E. cbn [simp_vol] in V.
  set (D := ((x1 - x0) * (y2 - y0) - (y1 - y0) * (x2 - x0))%R) in *. assert (D <> 0)%R as DN by (intros Q; apply V; rewrite Q; lra).
  set (b2 := ((x1 - x0) ^ 2 + (y1 - y0) ^ 2)%R). set (c2 := ((x2 - x0) ^ 2 + (y2 - y0) ^ 2)%R).
  set (ux := (((y2 - y0) * b2 - (y1 - y0) * c2) / (2 * D))%R). set (uy := (((x1 - x0) * c2 - (x2 - x0) * b2) / (2 * D))%R).
  assert (E1 : (2 * (ux * (x1 - x0) + uy * (y1 - y0)) = b2)%R) by (unfold ux, uy; replace b2 with (b2 * D / D)%R by (field; exact DN); unfold D; field; exact DN).
  assert (E2 : (2 * (ux * (x2 - x0) + uy * (y2 - y0)) = c2)%R) by (unfold ux, uy; replace c2 with (c2 * D / D)%R by (field; exact DN); unfold D; field; exact DN).
  exists [x0 + ux; y0 + uy]%R, (ux ^ 2 + uy ^ 2)%R. unfold circumscribed. unfold b2 in E1. unfold c2 in E2. clearbody ux uy.
  repeat (apply Forall_cons; [split; [reflexivity|cbn [sqnorm_diff]; nra]|]). apply Forall_nil.
Qed.
Lemma circ_exists d s : d = 2 \/ d = 3 -> simplex_points d s -> simp_vol s <> 0%R -> exists c r, circumscribed s c r.
Proof. intros [-> | ->]; [apply circ_plane|apply circ_total]. Qed.

Section Exchange.
Variables (Q : par_backend) (size : nat) (P : nat -> problem) (ext : list (list R)) (c : nat) (p : nat -> list pt) (d : nat).
Hypotheses (S2 : 2 <= size) (D : d = 2 \/ d = 3) (DP : forall r, r < size -> g_dim (P r) = d) (X : extents_ok d size ext) (IT : intersection_test d (q_meets Q)).
Notation vertices := (vertices Q c p). Notation cells := (cells Q c p). Notation cell_points := (cell_points Q c p).
Notation full_mesh := (full_mesh Q c p d). Notation some_stay := (some_stay Q size ext c p d). Notation clear_below := (clear_below Q ext c p d).
Notation incoming := (incoming Q size P ext c p). Notation held := (held Q size P ext c p).
Definition lower (s : nat) := box_below d ext s.
Definition upper (s : nat) := if s + 1 =? size then nowhere d else box_of d ext (s + 1).
Lemma nb s : s < size -> neighbours d size s ext (lower s) (upper s).
Proof.
  intros L. unfold lower, upper, neighbours, box_below, box_of, nowhere. destruct (Nat.eqb_spec (s + 1) size); destruct s as [|s]; repeat split; intros; try lia; try reflexivity.
  - replace (S s - 1) with s by lia. reflexivity.
  - replace (S s - 1) with s by lia. reflexivity.
Qed.
Lemma boxes_fit s : s < size -> box_ok d (lower s) /\ box_ok d (upper s).
Proof. intros L. destruct (boxes d size s ext _ _ S2 L X (nb s L)) as (_ & _ & A & B). split; assumption. Qed.
Lemma box_fit r : r < size -> box_ok d (box_of d ext r).
Proof. intros L. destruct (row_box d size ext r X L) as (E & B). unfold box_of. rewrite <- E. exact B. Qed.
(** a corner in the box: the span and the sphere of the cell meet it *)
Lemma corner_span s e x b : e < length (cells s) -> In x (cell_points s e) -> within b x -> span_meets d (cell_points s e) b.
Proof. intros L J W. exists x. split; [exact W|]. intros k _. split; exists x; split; try exact J; apply Rle_refl. Qed.
Lemma corner_sphere s e x b : mesh_ok d (vertices s) (cells s) -> e < length (cells s) -> simp_vol (cell_points s e) <> 0%R -> In x (cell_points s e) -> within b x -> sphere_meets (cell_points s e) b.
Proof.
  intros M L V J W. destruct (circ_exists d _ D (simplex_at d _ _ e M L) V) as (z & r2 & C). exists z, r2, x. split; [exact C|]. split; [exact W|]. unfold circumscribed in C. rewrite Forall_forall in C. apply C, J.
Qed.
Lemma hit_box s e v b : mesh_ok d (vertices s) (cells s) -> box_ok d b -> e < length (cells s) -> In v (nth e (cells s) []) -> simp_vol (cell_points s e) <> 0%R -> within b (nth v (vertices s) []) ->
  q_meets Q (cell_points s e) b = true.
Proof.
  intros M B L J V W. apply (IT _ b (simplex_at d _ _ e M L) V (proj1 B) (proj1 (proj2 B))). apply (corner_sphere s e (nth v (vertices s) [])); try assumption. apply in_map_iff. exists v. split; [reflexivity|exact J].
Qed.
Lemma stays s : s < size -> mesh_ok d (vertices s) (cells s) -> some_stay s -> exists v, v < length (vertices s) /\ forall e, ~ first_hit d (q_meets Q) (lower s) (upper s) (vertices s) (cells s) v e.
Proof.
  intros L M (v & V & N). exists v. split; [exact V|]. intros e (E & J & (NV & _) & MM & _). destruct (N e E J) as (N1 & N2). destruct (boxes_fit s L) as (B1 & B2).
  pose proof (IT _ (lower s) (simplex_at d _ _ e M E) NV (proj1 B1) (proj1 (proj2 B1))) as (_ & T1). pose proof (IT _ (upper s) (simplex_at d _ _ e M E) NV (proj1 B2) (proj1 (proj2 B2))) as (_ & T2).
  destruct MM as [T|T]; [exact (N1 (T1 T))|exact (N2 (T2 T))].
Qed.
Lemma exports_of s : s < size -> mesh_ok d (vertices s) (cells s) -> some_stay s -> exists below above,
   (forall v, In v below <-> v < length (vertices s) /\ exists e, first_hit d (q_meets Q) (lower s) (upper s) (vertices s) (cells s) v e /\ q_meets Q (cell_points s e) (lower s) = true) /\
   (forall v, In v above <-> v < length (vertices s) /\ exists e, first_hit d (q_meets Q) (lower s) (upper s) (vertices s) (cells s) v e /\ q_meets Q (cell_points s e) (lower s) = false) /\
   to_below (exported Q size P ext c p s) = map (fun v => nth v (vertices s) []) below /\ to_above (exported Q size P ext c p s) = map (fun v => nth v (vertices s) []) above.
Proof.
  intros L M N. pose proof (C89_exported_points Q size P ext c p s (vertices s) (cells s) (lower s) (upper s) S2 L) as T. cbv zeta in T. rewrite (DP s L) in T.
  specialize (T ltac:(lia) X (nb s L)). assert (q_tri Q s c (p s) = (vertices s, cells s)) as E by (unfold GhostBox.vertices, GhostBox.cells; apply surjective_pairing).
  destruct (T E M (stays s L M N)) as (_ & below & above & _ & _ & A & B & C & C'). exists below, above. split; [exact A|]. split; [exact B|]. split; assumption.
Qed.
(** a vertex in a box of a neighbour is in the selection *)
Lemma selected s v b : s < size -> full_mesh s -> v < length (vertices s) -> b = lower s \/ b = upper s -> within b (nth v (vertices s) []) ->
  exists e, first_hit d (q_meets Q) (lower s) (upper s) (vertices s) (cells s) v e.
Proof.
  intros L (M & FM) V B W. destruct (FM v V) as (e & E & J & NV). destruct (boxes_fit s L) as (B1 & B2).
  assert (J' : In (nth v (vertices s) []) (cell_points s e)) by (apply in_map_iff; exists v; auto).
  destruct (C61_complete d (q_meets Q) (lower s) (upper s) (vertices s) (cells s) v e B1 B2 M IT E J NV) as (o & DE).
  - destruct B as [-> | ->]; [left|right]; apply (corner_span s e (nth v (vertices s) [])); assumption.
  - destruct B as [-> | ->]; [left|right]; apply (corner_sphere s e (nth v (vertices s) [])); assumption.
  - destruct (dest_spec d (q_meets Q) (lower s) (upper s) B1 B2 (vertices s) (cells s) (faces_ne d (vertices s) (cells s) M) v) as (D1 & D2 & _). destruct o.
    + destruct (proj1 D2 DE) as (e' & H & _). exists e'. exact H.
    + destruct (proj1 D1 DE) as (e' & H & _). exists e'. exact H.
Qed.
Lemma from_above r x : r + 1 < size -> full_mesh (r + 1) -> some_stay (r + 1) -> In x (vertices (r + 1)) -> within (box_of d ext r) x -> In x (incoming r).
Proof.
  intros L FM N J W. destruct (In_nth _ _ [] J) as (v & V & <-). assert (LE : lower (r + 1) = box_of d ext r) by (unfold lower; replace (r + 1) with (S r) by lia; reflexivity).
  destruct (exports_of (r + 1) L (proj1 FM) N) as (below & above & A & _ & TB & _). unfold Lockstep.incoming. rewrite (proj2 (Nat.ltb_lt _ _) L), TB. apply in_or_app. left. apply in_map_iff. exists v. split; [reflexivity|].
  apply A. split; [exact V|]. destruct (selected (r + 1) v (box_of d ext r) L FM V (or_introl (eq_sym LE)) W) as (e & H). exists e. split; [exact H|]. destruct H as (E & I & (NV & _) & _).
  apply (hit_box (r + 1) e v); try assumption; [apply FM|apply boxes_fit, L|rewrite LE; exact W].
Qed.
Lemma from_below s x : s + 1 < size -> full_mesh s -> some_stay s -> clear_below s -> In x (vertices s) -> within (box_of d ext (s + 1)) x -> In x (incoming (s + 1)).
Proof.
  intros L FM N CB J W. destruct (In_nth _ _ [] J) as (v & V & <-). assert (Ls : s < size) by lia.
  assert (UE : upper s = box_of d ext (s + 1)) by (unfold upper; destruct (Nat.eqb_spec (s + 1) size); [lia|reflexivity]).
  destruct (exports_of s Ls (proj1 FM) N) as (below & above & _ & B & _ & TA). unfold Lockstep.incoming. destruct (Nat.eqb_spec (s + 1) 0); [lia|]. replace (s + 1 - 1) with s by lia. rewrite TA.
  apply in_or_app. right. apply in_map_iff. exists v. split; [reflexivity|]. apply B. split; [exact V|].
  destruct (selected s v (box_of d ext (s + 1)) Ls FM V (or_intror (eq_sym UE)) W) as (e & H). exists e. split; [exact H|]. destruct H as (E & I & (NV & _) & _).
  destruct (q_meets Q (cell_points s e) (lower s)) eqn:T; [|reflexivity]. exfalso. destruct (boxes_fit s Ls) as (B1 & _).
  apply (CB v e V W E I NV). apply (IT _ (lower s) (simplex_at d _ _ e (proj1 FM) E) NV (proj1 B1) (proj1 (proj2 B1))). exact T.
Qed.
Lemma incoming_origin r x : r < size -> (forall s, s < size -> mesh_ok d (vertices s) (cells s) /\ some_stay s) -> In x (incoming r) -> exists s, s < size /\ In x (vertices s).
Proof.
  intros L H J. unfold Lockstep.incoming in J. apply in_app_or in J as [J|J].
  - destruct (Nat.ltb_spec (r + 1) size) as [Q1|]; [|destruct J]. exists (r + 1). split; [exact Q1|]. destruct (H (r + 1) Q1) as (M & N). destruct (exports_of (r + 1) Q1 M N) as (below & above & A & _ & TB & _).
    rewrite TB in J. apply in_map_iff in J as (v & <- & I). apply nth_In, A, I.
  - destruct (Nat.eqb_spec r 0); [destruct J|]. assert (Q1 : r - 1 < size) by lia. exists (r - 1). split; [exact Q1|]. destruct (H (r - 1) Q1) as (M & N). destruct (exports_of (r - 1) Q1 M N) as (below & above & _ & A & _ & TB).
    rewrite TB in J. apply in_map_iff in J as (v & <- & I). apply nth_In, A, I.
Qed.
End Exchange.

(** Every vertex of any rank that lies in the box of rank r is on rank r after the exchange. *)
Theorem C117_sees_its_box : forall Q size P ext c p d r, 2 <= size -> d = 2 \/ d = 3 -> (forall s, s < size -> g_dim (P s) = d) -> extents_ok d size ext -> intersection_test d (q_meets Q) ->
  (forall s, s < size -> full_mesh Q c p d s /\ some_stay Q size ext c p d s) -> (forall s, s + 1 = r -> clear_below Q ext c p d s) -> only_neighbours Q size ext c p d r -> r < size ->
  forall s x, s < size -> In x (vertices Q c p s) -> within (box_of d ext r) x -> In x (held Q size P ext c p r).
Proof.
  intros Q size P ext c p d r S2 D DP X IT FM CB ON L s x Ls J W. apply in_or_app. destruct (Nat.eq_dec s r) as [-> | N1]; [left; exact J|right].
  destruct (Nat.eq_dec s (r + 1)) as [-> | N2]; [apply from_above with (d := d); try assumption; apply FM; lia|].
  destruct (Nat.eq_dec (s + 1) r) as [<- | N3]; [apply from_below with (d := d); try assumption; [apply FM; lia|apply FM; lia|apply CB; reflexivity]|].
  exfalso. apply (ON s x Ls N1 N3 ltac:(lia) J W).
Qed.
Print Assumptions C117_sees_its_box.
(** So a ball inside the box that is empty for the rank is empty for all ranks: a cell of its triangulation with such a circumscribed ball is
    a Delaunay cell of all points together. *)
Theorem C117_local_cell_is_global : forall Q size P ext c p d r, 2 <= size -> d = 2 \/ d = 3 -> (forall s, s < size -> g_dim (P s) = d) -> extents_ok d size ext -> intersection_test d (q_meets Q) ->
  (forall s, s < size -> full_mesh Q c p d s /\ some_stay Q size ext c p d s) -> (forall s, s + 1 = r -> clear_below Q ext c p d s) -> only_neighbours Q size ext c p d r -> r < size ->
  forall z r2, (forall y, length y = d -> (sqnorm_diff y z < r2)%R -> within (box_of d ext r) y) -> (forall x, In x (held Q size P ext c p r) -> (r2 <= sqnorm_diff x z)%R) ->
  forall s x, s < size -> In x (vertices Q c p s) -> (r2 <= sqnorm_diff x z)%R.
Proof.
  intros Q size P ext c p d r S2 D DP X IT FM CB ON L z r2 IN E s x Ls J. destruct (Rlt_le_dec (sqnorm_diff x z) r2) as [B|B]; [|exact B]. apply E.
  apply C117_sees_its_box with (d := d) (s := s); try assumption. apply IN; [|exact B]. destruct (FM s Ls) as ((M & _) & _). destruct M as (M & _). rewrite Forall_forall in M. apply M, J.
Qed.
Print Assumptions C117_local_cell_is_global.
(** Conversely the corners of a Delaunay cell of all points that lie in the box are all on the rank, and the cell is a Delaunay cell there. *)
Theorem C117_global_cell_is_local : forall Q size P ext c p d r, 2 <= size -> d = 2 \/ d = 3 -> (forall s, s < size -> g_dim (P s) = d) -> extents_ok d size ext -> intersection_test d (q_meets Q) ->
  (forall s, s < size -> full_mesh Q c p d s /\ some_stay Q size ext c p d s) -> (forall s, s + 1 = r -> clear_below Q ext c p d s) -> only_neighbours Q size ext c p d r -> r < size ->
  forall cell z r2, (forall y, In y cell -> within (box_of d ext r) y /\ sqnorm_diff y z = r2 /\ exists s, s < size /\ In y (vertices Q c p s)) ->
  (forall s x, s < size -> In x (vertices Q c p s) -> (r2 <= sqnorm_diff x z)%R) ->
  (forall y, In y cell -> In y (held Q size P ext c p r)) /\ forall x, In x (held Q size P ext c p r) -> (r2 <= sqnorm_diff x z)%R.
Proof.
  intros Q size P ext c p d r S2 D DP X IT FM CB ON L cell z r2 C E. split.
  - intros y J. destruct (C y J) as (W & _ & s & Ls & V). apply C117_sees_its_box with (d := d) (s := s); assumption.
  - intros x J. apply in_app_or in J as [J|J]; [apply (E r x L J)|].
    destruct (incoming_origin Q size P ext c p d S2 D DP X IT r x L) as (s & Ls & V); [intros s Ls; split; apply FM, Ls|exact J|]. apply (E s x Ls V).
Qed.
Print Assumptions C117_global_cell_is_local.

(** ---- cases: right triangles with unit legs ---- *)
Definition tri (a b w : R) : list pt := [[a; b]; [a + w; b]; [a; b + 1]]%R.
Lemma tri_ball a b w x0 y0 x1 y1 : (w = 1 \/ w = -1)%R -> ball_meets (tri a b w) ([x0; y0], [x1; y1]) ->
  exists x y, (x0 <= x <= x1)%R /\ (y0 <= y <= y1)%R /\ ((x - (a + w / 2)) ^ 2 + (y - (b + 1 / 2)) ^ 2 <= 1 / 2)%R.
Proof.
  intros W (z & r2 & q & C & I & B). unfold circumscribed, tri in C. apply Forall_cons_iff in C as ((L & C0) & C). apply Forall_cons_iff in C as ((_ & C1) & C). apply Forall_cons_iff in C as ((_ & C2) & _).
  destruct z as [|zx [|zy [|]]]; try discriminate L. cbn [sqnorm_diff] in C0, C1, C2.
  assert (zy = b + 1 / 2)%R as -> by lra. assert (zx = a + w / 2)%R as ->. { destruct W as [-> | ->]; lra. }
  assert (r2 = 1 / 2)%R as -> by (destruct W as [-> | ->]; lra).
  destruct I as (I & I'). cbn [fst snd] in I, I'. inversion I as [|? x ? q1 H1 I1]; subst. inversion I1 as [|? y ? q2 H2 I2]; subst. inversion I2; subst. inversion I' as [|? ? ? ? H3 I3]; subst. inversion I3 as [|? ? ? ? H4 I4]; subst.
  exists x, y. cbn [sqnorm_diff] in B. repeat split; lra.
Qed.
(** the ball of such a triangle does not reach a box more than 3/4 away from its centre along the first axis *)
Lemma tri_far a b w x0 y0 x1 y1 : (w = 1 \/ w = -1)%R -> (x1 <= a + w / 2 - 3 / 4 \/ a + w / 2 + 3 / 4 <= x0 \/ y1 <= b - 1 / 4 \/ b + 5 / 4 <= y0)%R -> ~ ball_meets (tri a b w) ([x0; y0], [x1; y1])%R.
Proof. intros W F H. destruct (tri_ball a b w x0 y0 x1 y1 W H) as (x & y & X & Y & B). clear H W. set (u := (x - (a + w / 2))%R) in *. set (v := (y - (b + 1 / 2))%R) in *.
  assert (u <= -3 / 4 \/ 3 / 4 <= u \/ v <= - 3 / 4 \/ 3 / 4 <= v)%R as G by (unfold u, v; lra). clearbody u v. destruct G as [G|[G|[G|G]]]; nra. Qed.
Lemma tri_vol a b w : simp_vol (tri a b w) = (w / 2)%R. Proof. cbn. lra. Qed.
Definition two_ranks (Q0 : par_backend) (t : nat -> list pt * list (list nat)) : par_backend := mkPar (fun r _ _ => t r) (q_ins Q0) disk_test (q_unknown Q0) (q_rnd Q0) (q_serial Q0).

(** two ranks with two triangles each; one triangle of either rank is in the box of the other and is sent there *)
Definition pair_mesh (r : nat) : list pt * list (list nat) := match r with O => (tri 0 0 1 ++ tri (-20) 0 (-1), [[0;1;2];[3;4;5]]) | _ => (tri 2 0 1 ++ tri 23 0 1, [[0;1;2];[3;4;5]]) end.
Definition pair_ext : list (list R) := [[-26;0;6;1];[-3;0;29;1]]%R.
Example C117_case : forall Q0 P, (forall s, s < 2 -> g_dim (P s) = 2) -> let Q := two_ranks Q0 pair_mesh in
  extents_ok 2 2 pair_ext /\ intersection_test 2 (q_meets Q) /\ (forall s, s < 2 -> full_mesh Q 0 (fun _ => []) 2 s /\ some_stay Q 2 pair_ext 0 (fun _ => []) 2 s) /\
  (forall s, s < 2 -> clear_below Q pair_ext 0 (fun _ => []) 2 s) /\ (forall r, r < 2 -> only_neighbours Q 2 pair_ext 0 (fun _ => []) 2 r) /\
  In [2; 0]%R (held Q 2 P pair_ext 0 (fun _ => []) 0) /\ In [1; 0]%R (held Q 2 P pair_ext 0 (fun _ => []) 1).
Proof.
  intros Q0 P DP Q. assert (A1 : extents_ok 2 2 pair_ext).
  { split; [reflexivity|]. unfold pair_ext. repeat (apply Forall_cons; [split; [reflexivity|cbn [firstn skipn]; repeat (apply Forall2_cons; [lra|]); apply Forall2_nil]|]). apply Forall_nil. }
  assert (A2 : intersection_test 2 (q_meets Q)) by (apply (C61_case 2)).
  assert (A3 : forall s, s < 2 -> full_mesh Q 0 (fun _ => []) 2 s).
  { intros s L. assert (s = 0 \/ s = 1) as [-> | ->] by lia.
    all: split; [split; [repeat (apply Forall_cons; [reflexivity|]); apply Forall_nil|repeat (apply Forall_cons; [split; [reflexivity|repeat (apply Forall_cons; [cbn; lia|]); apply Forall_nil]|]); apply Forall_nil]|].
    all: intros v V; cbn in V; do 6 (destruct v as [|v]; [first [exists 0; split; [cbn; lia|]; split; [cbn; lia|]; cbn; lra|exists 1; split; [cbn; lia|]; split; [cbn; lia|]; cbn; lra]|]); lia. }
  assert (A4 : forall s, s < 2 -> some_stay Q 2 pair_ext 0 (fun _ => []) 2 s).
  { intros s L. exists 3. assert (s = 0 \/ s = 1) as [-> | ->] by lia; (split; [cbn; lia|]).
    - intros e E J. cbn in E. destruct e as [|[|e]]; [cbn in J; lia| |lia]. change (cell_points Q 0 (fun _ => []) 0 1) with (tri (-20) 0 (-1)). split; apply tri_far; lra.
    - intros e E J. cbn in E. destruct e as [|[|e]]; [cbn in J; lia| |lia]. change (cell_points Q 0 (fun _ => []) 1 1) with (tri 23 0 1). split; apply tri_far; lra. }
  assert (A5 : forall s, s < 2 -> clear_below Q pair_ext 0 (fun _ => []) 2 s).
  { intros s L v e V W E J _. assert (s = 0 \/ s = 1) as [-> | ->] by lia.
    - cbn in E. destruct e as [|[|e]]; [| |lia]; [change (cell_points Q 0 (fun _ => []) 0 0) with (tri 0 0 1)|change (cell_points Q 0 (fun _ => []) 0 1) with (tri (-20) 0 (-1))]; apply tri_far; lra.
    - exfalso. destruct W as (W & _). cbn in W, V. do 6 (destruct v as [|v]; [inversion W|]). lia. }
  assert (A6 : forall r, r < 2 -> only_neighbours Q 2 pair_ext 0 (fun _ => []) 2 r) by (intros r L s x Ls N1 N2 N3; exfalso; lia).
  split; [exact A1|]. split; [exact A2|]. split; [intros s L; split; auto|]. split; [exact A5|]. split; [exact A6|].
  split; [apply (C117_sees_its_box Q 2 P pair_ext 0 (fun _ => []) 2 0) with (s := 1)|apply (C117_sees_its_box Q 2 P pair_ext 0 (fun _ => []) 2 1) with (s := 0)]; auto; try lia.
  - cbn. auto.
  - unfold box_of, pair_ext. cbn. split; cbn; repeat (apply Forall2_cons; [lra|]); apply Forall2_nil.
  - intros s E. apply A5. lia.
  - cbn. right. left. f_equal. lra.
  - unfold box_of, pair_ext. cbn. split; cbn; repeat (apply Forall2_cons; [lra|]); apply Forall2_nil.
Qed.

(** Outside the boxes nothing is guaranteed: the boxes are padded along one axis only. Two ranks with a triangle each, a Delaunay circle
    of all points passes through points of both, and no point is exchanged. *)
Definition diag_mesh (r : nat) : list pt * list (list nat) := match r with O => (tri 0 0 1, [[0;1;2]]) | _ => (tri 2 2 1, [[0;1;2]]) end.
Definition diag_ext : list (list R) := [[-5;0;6;1];[-3;2;8;3]]%R.
Theorem C117_outside_missed_refuted : forall Q0 P, (forall s, s < 2 -> g_dim (P s) = 2) -> let Q := two_ranks Q0 diag_mesh in
  extents_ok 2 2 diag_ext /\ intersection_test 2 (q_meets Q) /\
  (forall s, s < 2 -> full_mesh Q 0 (fun _ => []) 2 s /\ some_stay Q 2 diag_ext 0 (fun _ => []) 2 s /\ clear_below Q diag_ext 0 (fun _ => []) 2 s /\ only_neighbours Q 2 diag_ext 0 (fun _ => []) 2 s) /\
  (forall s, s < 2 -> incoming Q 2 P diag_ext 0 (fun _ => []) s = []) /\
  exists z r2, (forall s x, s < 2 -> In x (vertices Q 0 (fun _ => []) s) -> (r2 <= sqnorm_diff x z)%R) /\
    Forall (fun x => sqnorm_diff x z = r2) [[1; 0]; [0; 1]; [2; 2]]%R /\ In [0; 1]%R (vertices Q 0 (fun _ => []) 0) /\ In [2; 2]%R (vertices Q 0 (fun _ => []) 1).
Proof.
  intros Q0 P DP Q. assert (A1 : extents_ok 2 2 diag_ext).
  { split; [reflexivity|]. unfold diag_ext. repeat (apply Forall_cons; [split; [reflexivity|cbn [firstn skipn]; repeat (apply Forall2_cons; [lra|]); apply Forall2_nil]|]). apply Forall_nil. }
  assert (A2 : intersection_test 2 (q_meets Q)) by (apply (C61_case 2)).
  assert (A3 : forall s, s < 2 -> full_mesh Q 0 (fun _ => []) 2 s).
  { intros s L. assert (s = 0 \/ s = 1) as [-> | ->] by lia.
    all: split; [split; [repeat (apply Forall_cons; [reflexivity|]); apply Forall_nil|repeat (apply Forall_cons; [split; [reflexivity|repeat (apply Forall_cons; [cbn; lia|]); apply Forall_nil]|]); apply Forall_nil]|].
    all: intros v V; cbn in V; do 3 (destruct v as [|v]; [exists 0; split; [cbn; lia|]; split; [cbn; lia|]; cbn; lra|]); lia. }
  assert (NB : forall s e, s < 2 -> e < length (cells Q 0 (fun _ => []) s) -> ~ ball_meets (cell_points Q 0 (fun _ => []) s e) (lower diag_ext 2 s) /\ ~ ball_meets (cell_points Q 0 (fun _ => []) s e) (upper 2 diag_ext 2 s)).
  { intros s e L E. assert (s = 0 \/ s = 1) as [-> | ->] by lia; cbn in E; (destruct e as [|e]; [|lia]).
    - change (cell_points Q 0 (fun _ => []) 0 0) with (tri 0 0 1). split; apply tri_far; lra.
    - change (cell_points Q 0 (fun _ => []) 1 0) with (tri 2 2 1). split; apply tri_far; lra. }
  assert (A4 : forall s, s < 2 -> some_stay Q 2 diag_ext 0 (fun _ => []) 2 s).
  { intros s L. exists 0. split; [assert (s = 0 \/ s = 1) as [-> | ->] by lia; cbn; lia|]. intros e E _. apply (NB s e L E). }
  assert (A5 : forall s, s < 2 -> clear_below Q diag_ext 0 (fun _ => []) 2 s) by (intros s L v e V W E J _; apply (NB s e L E)).
  assert (A6 : forall r, r < 2 -> only_neighbours Q 2 diag_ext 0 (fun _ => []) 2 r) by (intros r L s x Ls N1 N2 N3; exfalso; lia).
  split; [exact A1|]. split; [exact A2|]. split; [intros s L; repeat split; auto; apply A3, L|]. split.
  - assert (G : forall s, s < 2 -> to_below (exported Q 2 P diag_ext 0 (fun _ => []) s) = [] /\ to_above (exported Q 2 P diag_ext 0 (fun _ => []) s) = []).
    { intros s L. destruct (exports_of Q 2 P diag_ext 0 (fun _ => []) 2 ltac:(lia) (or_introl eq_refl) DP A1 A2 s L (proj1 (A3 s L)) (A4 s L)) as (below & above & B & A & EB & EA).
      assert (NH : forall v e, ~ first_hit 2 (q_meets Q) (lower diag_ext 2 s) (upper 2 diag_ext 2 s) (vertices Q 0 (fun _ => []) s) (cells Q 0 (fun _ => []) s) v e).
      { intros v e (E & _ & (NV & _) & M & _). destruct (NB s e L E) as (N1 & N2). destruct (boxes_fit 2 diag_ext 2 ltac:(lia) (or_introl eq_refl) A1 s L) as (B1 & B2). pose proof (simplex_at 2 _ _ e (proj1 (A3 s L)) E) as SP.
        destruct M as [M|M]; [apply N1; apply (A2 _ (lower diag_ext 2 s) SP NV (proj1 B1) (proj1 (proj2 B1))); exact M|apply N2; apply (A2 _ (upper 2 diag_ext 2 s) SP NV (proj1 B2) (proj1 (proj2 B2))); exact M]. }
      rewrite EB, EA. split.
      - destruct below as [|v l]; [reflexivity|]. exfalso. destruct (proj1 (B v) (or_introl eq_refl)) as (_ & e & H & _). exact (NH v e H).
      - destruct above as [|v l]; [reflexivity|]. exfalso. destruct (proj1 (A v) (or_introl eq_refl)) as (_ & e & H & _). exact (NH v e H). }
    intros s L. unfold incoming. assert (s = 0 \/ s = 1) as [-> | ->] by lia; cbn [Nat.ltb Nat.leb Nat.add Nat.eqb Nat.sub app].
    + rewrite (proj1 (G 1 ltac:(lia))). reflexivity.
    + rewrite (proj2 (G 0 ltac:(lia))). reflexivity.
  - exists [7 / 6; 7 / 6]%R, (50 / 36)%R. split.
    + intros s x L J. assert (s = 0 \/ s = 1) as [-> | ->] by lia; cbn in J; repeat (destruct J as [<- | J]; [cbn; lra|]); destruct J.
    + split; [repeat (apply Forall_cons; [cbn; lra|]); apply Forall_nil|]. split; cbn; [right; right; left; f_equal; f_equal; lra|left; reflexivity].
Qed.
Print Assumptions C117_outside_missed_refuted.
