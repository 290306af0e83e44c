(** The signed volumes and the flipping of fix_mesh in binary64 (geometry/utils.py l.187-199, 244-247); Model/Simplex.v and
    Model/Mesh.v have them over the reals.  Overflow is not modelled; the three products of l.199 are summed from left to right
    (np.einsum on rows of three entries), without fused multiply-add. *)
From Coq Require Import List Reals.
From Verif Require Import Model.Base Model.FastHJ Model.Mesh Model.Snap.
Import ListNotations.
Local Open Scope R_scope.

(** a * d - b * c of differences already rounded *)
Definition det64 (a b c d : R) : R := rnd64 (rnd64 (a * d) - rnd64 (b * c)).
(** simp_vol, l.190-199 *)
Definition simp_vol64 (s : list (list R)) : R :=
  match s with
  | [[x0; y0]; [x1; y1]; [x2; y2]] =>
      let ax := rnd64 (x1 - x0) in let ay := rnd64 (y1 - y0) in let bx := rnd64 (x2 - x0) in let by_ := rnd64 (y2 - y0) in
      rnd64 (det64 ax ay bx by_ / 2)
  | [[x0; y0; z0]; [x1; y1; z1]; [x2; y2; z2]; [x3; y3; z3]] =>
      let ax := rnd64 (x1 - x0) in let ay := rnd64 (y1 - y0) in let az := rnd64 (z1 - z0) in
      let bx := rnd64 (x2 - x0) in let by_ := rnd64 (y2 - y0) in let bz := rnd64 (z2 - z0) in
      let cx := rnd64 (x3 - x0) in let cy := rnd64 (y3 - y0) in let cz := rnd64 (z3 - z0) in
      rnd64 (rnd64 (rnd64 (rnd64 (det64 ay az by_ bz * cx) + rnd64 (det64 az ax bz bx * cy)) + rnd64 (det64 ax ay bx by_ * cz)) / 6)
  | _ => 0
  end.
(** l.246-247 *)
Definition orient64 (p : list (list R)) (r : row) : row :=
  if Rltb (simp_vol64 (map (fun v => nth v p []) r)) 0 then swap2 r else r.
(** fix_mesh, l.204-249 *)
Definition fix_mesh_all64 (uniqK : list key -> list key) (uniqR : list row -> list row) (ptol : R) (p : list (list R)) (t : list row)
    (delete_unused fix_orientation : bool) : result (list (list R) * list row * list nat) :=
  rbind (fix_mesh64 uniqK uniqR ptol p t delete_unused false) (fun '(p2, t2, jx) =>
  Ok (p2, if fix_orientation then map (orient64 p2) t2 else t2, jx)).
