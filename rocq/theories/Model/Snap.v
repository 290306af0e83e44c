(** The snapping of fix_mesh (geometry/utils.py l.204-230) in binary64: which vertices np.unique over the byte view of the snapped
    coordinates (unique_rows, l.133-172) takes for equal.
    Not modelled: NaN (all vertices at one place: l.228 gives 0 and l.229 divides by it), overflow, a coordinate that is itself -0.0
    (a real number has no such sign: 0 stands for +0.0). *)
From Coq Require Import List ZArith Reals Bool.
From Flocq Require Import Core.
From Verif Require Import Model.Base Model.FastHJ Model.Mesh Model.Blocker.
Import ListNotations.
Local Open Scope R_scope.

(** l.228: snap = (p.max(0) - p.min(0)).max() * ptol *)
Definition snap_width (ptol : R) (p : list (list R)) : R :=
  rnd64 (max_list (map (fun j => rnd64 (max_list (column j p) - min_list (column j p))) (seq 0 (length (nth 0 p [])))) * ptol).
(** the bytes of a double: its magnitude and sign as a multiple of the smallest double, and whether it is -0.0 *)
Definition bytes64 (v : R) (minus_zero : bool) : list Z := [Ztrunc (v * bpow radix2 1074); if minus_zero then 1 else 0]%Z.
(** l.229: np.round(x / snap) * snap; np.round rounds halves to even and keeps the sign, also of zero *)
Definition snap1 (s x : R) : list Z :=
  let v := rnd64 (IZR (ZnearestE (rnd64 (x / s))) * s) in bytes64 v (Reqb v 0 && Rltb x 0).
Definition snap_key (s : R) (q : list R) : key := flat_map (snap1 s) q.
(** fix_mesh *)
Definition fix_mesh64 (uniqK : list key -> list key) (uniqR : list row -> list row) (ptol : R) (p : list (list R)) (t : list row)
    (delete_unused fix_orientation : bool) : result (list (list R) * list row * list nat) :=
  fix_mesh uniqK uniqR (snap_key (snap_width ptol p)) p t delete_unused fix_orientation.
