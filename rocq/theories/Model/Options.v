(** Model of option handling: SeismicMesh/generation/mesh_generator.py (_select_verbosity, _minmax, _check_bbox,
    _unpack_sizing, _unpack_domain, _parse_kwargs and the prologues of generate_mesh / sliver_removal) and the
    key check of SeismicMesh/sizing/mesh_size_function.py. *)
From Coq Require Import String List ZArith Reals Bool.
From Verif Require Import Model.Base.
Import ListNotations.
Local Open Scope string_scope.

(** Python numbers: the only thing that matters here is whether isinstance(x, int). *)
Inductive num := PInt (z : Z) | PFloat (r : R).
Definition nval (n : num) : R := match n with PInt z => IZR z | PFloat r => r end.

Definition bbox_t := list num.
(** values of keyword arguments: a number, a tuple of numbers, a list of numbers, anything else *)
Inductive pyval := VNum (n : num) | VTuple (l : bbox_t) | VList (l : bbox_t) | VOther.
Definition kwargs := list (string * pyval).

Definition mem (k : string) (l : list string) : bool := existsb (String.eqb k) l.

(** mesh_generator.py l.624-652 *)
Definition mesh_keys : list string :=
  ["verbose"; "max_iter"; "seed"; "perform_checks"; "pfix"; "axis"; "points"; "domain"; "edge_length"; "bbox";
   "min_dh_angle_bound"; "max_dh_angle_bound"; "delta_t"; "h0"; "geps_mult"; "subdomains"; "gamma"; "preserve";
   "mesh_improvement"; "r0m_is_h0"].
Fixpoint check_keys (known : list string) (kw : kwargs) : result unit :=
  match kw with
  | [] => Ok tt
  | (k, _) :: t => if mem k known then check_keys known t else Err ValueError
  end.
Definition parse_kwargs := check_keys mesh_keys.

(** mesh_size_function.py l.177-206; only rank 0 runs it *)
Definition sizing_keys : list string :=
  ["hmin"; "hmax"; "wl"; "freq"; "cr_max"; "dt"; "space_order"; "grad"; "grade"; "stencil_size"; "pad_style";
   "domain_pad"; "units"; "nz"; "nx"; "ny"; "byte_order"; "axes_order"; "axes_order_sort"; "dtype"; "velocity_data"; "vp_water"].
Definition sizing_check (rank : nat) (kw : kwargs) : result unit :=
  if Nat.eqb rank 0 then check_keys sizing_keys kw else Ok tt.

(** dict.get with the default dict already merged in: last binding wins in Python, keyword names are unique *)
Fixpoint lookup (k : string) (kw : kwargs) : option pyval :=
  match kw with
  | [] => None
  | (k', v) :: t => if String.eqb k k' then Some v else lookup k t
  end.
Definition get_num (k : string) (d : num) (kw : kwargs) : result num :=
  match lookup k kw with
  | None => Ok d
  | Some (VNum n) => Ok n
  | Some _ => Err TypeError
  end.

(** l.47-56: (print_msg1 talks, print_msg2 talks) *)
Definition select_verbosity (v : num) : result (bool * bool) :=
  if Reqb (nval v) 0 then Ok (false, false)
  else if Reqb (nval v) 1 then Ok (true, false)
  else if Rgtb (nval v) 1 then Ok (true, true)
  else Err ValueError.

(** l.543-552: zip stops at the shorter box; python's min/max keep the first argument on ties *)
Fixpoint minmax_from (upper : bool) (b0 b1 : bbox_t) : bbox_t :=
  match b0, b1 with
  | a :: t0, b :: t1 =>
      (if upper then (if Rgtb (nval b) (nval a) then b else a)
       else (if Rltb (nval b) (nval a) then b else a)) :: minmax_from (negb upper) t0 t1
  | _, _ => []
  end.
Definition minmax : bbox_t -> bbox_t -> bbox_t := minmax_from false.

(** l.555-559 *)
Definition is_int (n : num) : bool := match n with PInt _ => true | PFloat _ => false end.
Definition check_bbox (b : bbox_t) : result unit := if existsb is_int b then Err ValueError else Ok tt.

(** the two kinds of arguments: a geometry object / SizeFunction carries its box; a callable does not *)
Inductive domain_arg := DomGeometry (is_tuple : bool) (b : bbox_t) | DomCallable | DomOther.
Inductive edge_arg := EdgeSizeFunction (b : bbox_t) (hmin : num) | EdgeCallable | EdgeScalar (h : num) | EdgeOther.

(** l.594-621 (box part); a missing "bbox" key is a KeyError *)
Definition unpack_domain (d : domain_arg) (kw : kwargs) : result (bool * bbox_t) :=
  match d with
  | DomGeometry tup b => rbind (check_bbox b) (fun _ => Ok (tup, b))
  | DomCallable =>
      match lookup "bbox" kw with
      | None => Err OtherError
      | Some (VTuple b) => rbind (check_bbox b) (fun _ => Ok (true, b))
      | Some (VList b) => rbind (check_bbox b) (fun _ => Ok (false, b))
      | Some _ => Err TypeError
      end
  | DomOther => Err ValueError
  end.

(** l.562-591: box and hmin of the size function *)
Definition unpack_sizing (e : edge_arg) : result (option bbox_t * option num) :=
  match e with
  | EdgeSizeFunction b h => rbind (check_bbox b) (fun _ => Ok (Some b, Some h))
  | EdgeCallable => Ok (None, None)
  | EdgeScalar h => Ok (None, Some h)
  | EdgeOther => Err ValueError
  end.

(** prologue shared by generate_mesh (l.357-422, 438-441) and sliver_removal (l.122-164): the merged box, h0 and
    max_iter.  Not modelled here: unpacking of pfix/corners and the construction of the initial points that
    generate_mesh puts before the max_iter test. *)
Definition mesh_prologue (d : domain_arg) (e : edge_arg) (kw : kwargs) : result (bbox_t * num * num) :=
  rbind (parse_kwargs kw) (fun _ =>
  rbind (get_num "verbose" (PInt 1) kw) (fun v =>
  rbind (select_verbosity v) (fun _ =>
  rbind (unpack_domain d kw) (fun tb =>
  rbind (unpack_sizing e) (fun bh =>
  let bt := match fst bh with None => tb | Some b1 => (true, minmax (snd tb) b1) end in
  if negb (fst bt) then Err ValueError else
  rbind (match snd bh with
         | Some h => Ok h
         | None => match lookup "h0" kw with Some (VNum h) => Ok h | Some _ => Err TypeError | None => Err OtherError end
         end) (fun h0 =>
  if Rltb (nval h0) 0 then Err ValueError else
  rbind (get_num "max_iter" (PInt 50) kw) (fun mi =>
  if Rltb (nval mi) 0 then Err ValueError else Ok (snd bt, h0, mi)))))))).
