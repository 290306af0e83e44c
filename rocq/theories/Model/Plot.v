(** The plots: plot_sizing_function (sizing/mesh_size_function.py l.338-388) and the method show of every domain
    (geometry/signed_distance_functions.py l.11-67 and e.g. l.446-447).  What is handed to the drawing library and where the figure goes;
    matplotlib itself is not modelled. *)
From Coq Require Import String.
From Coq Require Import Reals List ZArith Bool Arith.
From Flocq Require Import Core.
From Verif Require Import Model.Base Model.SDF Model.InitGrid.
Import ListNotations.
Local Open Scope R_scope.

(** the first argument: a SizeFunction (its bbox and eval), or anything else *)
Inductive plot_arg := PSize (bbox : list R) (eval : list R -> R) | POther.
(** where the figure goes: plt.show() or plt.savefig(name) *)
Inductive figure := OnScreen | Saved (name : string).
Definition figure_for (filename : option string) : figure := match filename with None => OnScreen | Some n => Saved n end.

(** l.368-373: rows of (x, z, size), one row per z *)
Definition plot_row (eval : list R -> R) (xs : list R) (z : R) : list (R * R * R) := map (fun x => (x, z, eval [z; x])) xs.
(** a[0::stride] of the rows, l.377: nothing for stride 0 (ValueError), the first row alone for a negative stride *)
Definition every {A} (stride : Z) (l : list A) : result (list A) :=
  if (stride =? 0)%Z then Err ValueError
  else if (stride <? 0)%Z then Ok (firstn 1 l)
  else Ok (map snd (filter (fun iv => (fst iv mod Z.to_nat stride =? 0)%nat) (combine (seq 0 (length l)) l))).
(** l.356-388.  The name ax is bound on rank 0 only, so that "return ax" (l.388) raises UnboundLocalError elsewhere. *)
Definition plot_sizing_function (rank : nat) (a : plot_arg) (stride : Z) (filename : option string) : result (list (list (R * R * R)) * figure) :=
  if negb (rank =? 0)%nat then Err OtherError
  else match a with
  | POther => Err ValueError
  | PSize bbox eval =>
      match bbox with
      | [z0; z1; x0; x1] =>
          rbind (every stride (map (plot_row eval (arange x0 x1 50)) (arange z0 z1 50))) (fun rows => Ok (rows, figure_for filename))
      | _ => Err ValueError
      end
  end.

(** _generate_samples, l.11-40: random.uniform(a, b) is a + (b - a) * u with u between 0 and 1; [us]: the coordinates of the
    int(N) samples as such numbers *)
Fixpoint sample_point (bbox us : list R) : list R :=
  match bbox, us with
  | lo :: hi :: b, u :: t => (lo - 1 / 100 + (hi + 1 / 100 - (lo - 1 / 100)) * u) :: sample_point b t
  | _, _ => []
  end.
(** _show, l.43-67, through the method show(filename, samples) of every domain, which passes on filename=None *)
Definition show (d : domain) (us : list (list R)) (filename : option string) : list (list R) * figure :=
  (filter (fun x => Rgtb (d_eval d x) (- (1 / 100)) && Rltb (d_eval d x) (1 / 100)) (map (sample_point (d_bbox d)) us), figure_for None).
