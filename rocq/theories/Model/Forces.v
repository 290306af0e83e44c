(** Bar forces and the position update of generate_mesh (generation/mesh_generator.py l.416, 492-499, 680-712). *)
From Coq Require Import Reals List Arith Bool.
From Verif Require Import Model.Base Model.SDF Model.Simplex Model.Mesh Model.Laplace.
Import ListNotations.
Local Open Scope R_scope.

(** l.416: L0mult = 1 + 0.4 / 2 ** (dim - 1) *)
Definition L0mult (dim : nat) : R := 1 + 4 / 10 / 2 ^ (dim - 1).
(** l.695, 680-688: the bars are the distinct (min, max) pairs of corners *)
Definition bars (dim : nat) (t : list row) : list (nat * nat) := unique_edges (gen_edges dim t).
(** l.696 *)
Definition bar_vec (p : list pt) (e : nat * nat) : list R := map2 Rminus (nth (fst e) p []) (nth (snd e) p []).
(** l.697-698: bar length, zero lengths replaced by the machine epsilon *)
Definition bar_len (p : list pt) (e : nat * nat) : R :=
  let l := sub_len (nth (fst e) p []) (nth (snd e) p []) in if Reqb l 0 then eps52 else l.
(** l.699: the size function is evaluated at the bar midpoints (one value per point) *)
Definition mid (p : list pt) (e : nat * nat) : pt := map2 (fun x y => (x + y) / 2) (nth (fst e) p []) (nth (snd e) p []).
Definition powsum (dim : nat) (l : list R) : R := rtotal (map (fun x => x ^ dim) l).
(** l.700: the scale factor; [Rpower] agrees with ** on positive bases, the only ones reached when fh > 0 *)
Definition scale (dim : nat) (fh : pt -> R) (p : list pt) (es : list (nat * nat)) : R :=
  Rpower (powsum dim (map (bar_len p) es) / powsum dim (map (fun e => fh (mid p e)) es)) (1 / INR dim).
Definition desired (dim : nat) (fh : pt -> R) (m : R) (p : list pt) (es : list (nat * nat)) (e : nat * nat) : R :=
  fh (mid p e) * m * scale dim fh p es.
(** l.701-702: negative forces are replaced by 0 *)
Definition bar_force (dim : nat) (fh : pt -> R) (m : R) (p : list pt) (es : list (nat * nat)) (e : nat * nat) : R :=
  let f := desired dim fh m p es e - bar_len p e in if Rltb f 0 then 0 else f.
(** l.703-705 *)
Definition force_vec (dim : nat) (fh : pt -> R) (m : R) (p : list pt) (es : list (nat * nat)) (e : nat * nat) (j : nat) : R :=
  bar_force dim fh m p es e / bar_len p e * nth j (bar_vec p e) 0.
(** l.706-711 with generation/utils.py l.48-68: coo_matrix sums the entries sent to one (vertex, axis) place;
    row e sends Fvec to its first end and -Fvec to its second end *)
Definition compute_forces (dim : nat) (fh : pt -> R) (m : R) (p : list pt) (t : list row) : list (list R) :=
  let es := bars dim t in
  map (fun v => map (fun j =>
      rtotal (map (fun e => (if (fst e =? v)%nat then force_vec dim fh m p es e j else 0)
                          + (if (snd e =? v)%nat then - force_vec dim fh m p es e j else 0)) es))
    (seq 0 dim)) (seq 0 (length p)).
(** l.494: Ftot[ifix] = 0 *)
Definition zero_rows (ifix : list nat) (F : list (list R)) : list (list R) :=
  map (fun v => if existsb (Nat.eqb v) ifix then map (fun _ => 0) (nth v F []) else nth v F []) (seq 0 (length F)).
(** l.497: p += delta_t * Ftot *)
Definition move_points (dt : R) (p : list pt) (F : list (list R)) : list pt := map2 (map2 (fun x f => x + dt * f)) p F.
Definition force_step (dim : nat) (fh : pt -> R) (m dt : R) (ifix : list nat) (p : list pt) (t : list row) : list pt :=
  move_points dt p (zero_rows ifix (compute_forces dim fh m p t)).
