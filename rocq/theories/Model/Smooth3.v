(** laplacian2 and laplacian2_fixed_point (geometry/utils.py l.494-631) for arrays of any shape: what the check of [vertices.ndim] lets through.
    [shape] is the shape of the array vertices; [p] its rows when there are two axes.  Simplifications: the second axis has at least two
    columns (one column would be broadcast), the rows of pfix are as long as those of vertices, and there is at least one vertex. *)
From Coq Require Import List ZArith Reals Bool Arith.
From Verif Require Import Model.Base Model.SDF Model.Simplex Model.Mesh Model.Laplace.
Import ListNotations.
Local Open Scope R_scope.

(** laplacian2, l.550-631.  l.572: the number of axes of the array is compared with 2 (NotImplementedError = OtherError), not the number of
    columns.  l.588-593, 604-608: only the first three columns of entities are used and a vertex that is in none of them ends the call.
    l.615: (n, w) divided by (n, 2) cannot be broadcast for w > 2. *)
Definition laplacian2_call (uniq : list (list nat) -> list (list nat)) (shape : list nat) (p : list (list R)) (t : list (list nat)) (max_iter : nat)
    (tol : R) (pfix : option (list (list R))) : result (list (list R) * list (list nat)) :=
  match shape with
  | [n; w] =>
      if (w =? 2)%nat then laplacian2 uniq p t max_iter tol pfix
      else if existsb (fun v => (length (nbrs t v) =? 0)%nat) (seq 0 n) then Ok (p, t)
      else match max_iter with O => Ok (p, t) | S _ => Err ValueError end
  | _ => Err OtherError
  end.

(** laplacian2_fixed_point, l.509-539: the exception raised before the solver is called, if any.  l.534: without boundary edges bnd is an
    empty array of floats and d[bnd] raises IndexError; l.539: rows of w coordinates do not fit into rhs[bnd], which has two columns. *)
Definition fixed_point_raises (uniq : list (list nat) -> list (list nat)) (shape : list nat) (t : list (list nat)) : option exn :=
  match shape with
  | [n; w] => match get_boundary_vertices uniq 2 t with
              | [] => Some IndexError
              | _ :: _ => if (w =? 2)%nat then None else Some ValueError
              end
  | _ => Some OtherError
  end.
