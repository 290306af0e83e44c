(** generate_mesh and sliver_removal as they are called: Python values for the arguments and keywords, turned into the arguments of
    Model/Generator.v (generation/mesh_generator.py l.47-56, 107-170, 345-458, 562-621, 837-848, 890-900).  One process.
    Not modelled: an explicit bbox=None, numpy arrays used as flags, a flat pfix (one point without the outer brackets); the kind of
    the exception is that of the first failing test up to the order of tests that read unrelated options. *)
From Coq Require Import String List ZArith Reals Bool Arith.
From Verif Require Import Model.Base Model.SDF Model.Mesh Model.Options Model.Generator.
Import ListNotations.
Local Open Scope R_scope.

(** what is passed as domain: a geometry object (its box, a tuple or not; corners; eval), a function, or neither (l.594-621) *)
Inductive dom_val := GeomV (tup : bool) (b : bbox_t) (c : option (list pt)) (f : pt -> R) | FunV (f : pt -> R) | NoDomV.
(** what is passed as edge_length (l.562-591); the constructor of SizeFunction insists on a tuple *)
Inductive size_val := SizeFunctionV (b : bbox_t) (hmin : num) (f : pt -> R) | SizeFunV (f : pt -> R) | SizeNumV (h : num) | NoSizeV.
(** keyword values *)
Inductive arg := ANone | ABool (b : bool) | ANum (n : num) | ATuple (l : bbox_t) | AList (l : bbox_t) | APoints (l : list pt)
  | ADomains (l : list dom_val) | AText (s : string).
Definition call_kw := list (string * arg).
Fixpoint given (k : string) (kw : call_kw) : option arg :=
  match kw with [] => None | (k', v) :: t => if String.eqb k k' then Some v else given k t end.
(** gen_opts.update(kwargs): the default where nothing is given *)
Definition opt (k : string) (default : arg) (kw : call_kw) : arg := match given k kw with Some v => v | None => default end.

(** the same values as Model/Options.v sees them; True and False are the integers 1 and 0 *)
Definition pyval_of (a : arg) : pyval :=
  match a with ANum n => VNum n | ABool b => VNum (PInt (if b then 1 else 0)) | ATuple l => VTuple l | AList l => VList l | _ => VOther end.
Definition plain (kw : call_kw) : kwargs := map (fun kv => (fst kv, pyval_of (snd kv))) kw.
Definition dom_kind (d : dom_val) : domain_arg := match d with GeomV t b _ _ => DomGeometry t b | FunV _ => DomCallable | NoDomV => DomOther end.
Definition size_kind (s : size_val) : edge_arg :=
  match s with SizeFunctionV b h _ => EdgeSizeFunction b h | SizeFunV _ => EdgeCallable | SizeNumV h => EdgeScalar h | NoSizeV => EdgeOther end.

Definition number (a : arg) : result R :=
  match a with ANum n => Ok (nval n) | ABool b => Ok (if b then 1 else 0) | _ => Err TypeError end.
(** bool(x) *)
Definition truth (a : arg) : bool :=
  match a with
  | ANone => false | ABool b => b | ANum n => negb (Reqb (nval n) 0) | ATuple l | AList l => negb (length l =? 0)%nat
  | APoints l => negb (length l =? 0)%nat | ADomains l => negb (length l =? 0)%nat | AText s => negb (String.eqb s "")
  end.
(** pfix (l.890-900) and points (l.859-870) *)
Definition points_of (a : arg) : result (option (list pt)) :=
  match a with ANone => Ok None | APoints l => Ok (Some l) | _ => Err TypeError end.
(** np.random.seed (l.848): an integer from 0 to 2^32 - 1, a non-empty sequence of them, or None (unpredictable numbers) *)
Definition seed_ok (n : num) : result unit :=
  match n with PInt z => if ((0 <=? z) && (z <? 2 ^ 32))%Z then Ok tt else Err ValueError | PFloat _ => Err TypeError end.
Definition seed_check (a : arg) : result unit :=
  match a with
  | ANone | ABool _ => Ok tt
  | ANum n => seed_ok n
  | ATuple l | AList l => match l with [] => Err ValueError | _ => fold_right (fun n r => rbind (seed_ok n) (fun _ => r)) (Ok tt) l end
  | _ => Err TypeError
  end.
(** l.454-458: every subdomain is unpacked like the domain, so that a function asks for the keyword bbox *)
Definition domains_of (a : arg) : result (option (list dom_val)) :=
  match a with
  | ANone => Ok None
  | ADomains l => Ok (Some l)
  | ATuple l | AList l => Ok (Some (map (fun _ => NoDomV) l))
  | APoints l => Ok (Some (map (fun _ => NoDomV) l))
  | AText s => Ok (Some (repeat NoDomV (String.length s)))
  | ABool _ | ANum _ => Err TypeError
  end.
Definition fd_of (d : dom_val) : pt -> R := match d with GeomV _ _ _ f => f | FunV f => f | NoDomV => fun _ => 0 end.
Fixpoint unpack_all (l : list dom_val) (kw : call_kw) : result (list (pt -> R)) :=
  match l with
  | [] => Ok []
  | d :: t => rbind (unpack_domain (dom_kind d) (plain kw)) (fun _ => rbind (unpack_all t kw) (fun fs => Ok (fd_of d :: fs)))
  end.
Definition subdomains_of (kw : call_kw) : result (option (list (pt -> R))) :=
  rbind (domains_of (opt "subdomains" ANone kw)) (fun o => match o with None => Ok None | Some l => rbind (unpack_all l kw) (fun fs => Ok (Some fs)) end).

(** domain and size in the form of Model/Generator.v.  bbox0 != bbox1 (l.396) compares a list with a tuple as different even when the
    numbers agree: the domain is then replaced by its box ([boxed]: how the box is rebuilt; [None]: the name tmp is unbound). *)
Definition size_of (s : size_val) : size_arg :=
  match s with SizeFunctionV b h f => SObject (map nval b) (nval h) f | SizeFunV f => SFunction f | SizeNumV h => SScalar (nval h) | NoSizeV => SScalar 0 end.
Definition dom_of (d : dom_val) (b0 : bbox_t) : dom_arg :=
  match d with
  | GeomV _ _ c f => DObject (mkDom (Nat.div2 (length b0)) (map nval b0) c f)
  | FunV f => DFunction f (map nval b0)
  | NoDomV => DFunction (fun _ => 0) (map nval b0)
  end.
Definition replace_fd (d : dom_arg) (f : pt -> R) : dom_arg :=
  match d with DObject o => DObject (mkDom (d_dim o) (d_bbox o) (d_corners o) f) | DFunction _ b => DFunction f b end.
Definition used_domain (boxed : list R -> option (pt -> R)) (d : dom_val) (tup : bool) (b0 : bbox_t) (s : size_arg) : result dom_arg :=
  let d1 := dom_of d b0 in
  match size_bbox s with
  | Some _ => if tup then Ok d1 else match boxed (full_bbox d1 s) with Some f => Ok (replace_fd d1 f) | None => Err OtherError end
  | None => Ok d1
  end.
(** l.357-395 (and 122-155): names, verbosity, domain, size, box *)
Definition read_domain (boxed : list R -> option (pt -> R)) (d : dom_val) (s : size_val) (kw : call_kw) : result (dom_arg * size_arg) :=
  rbind (unpack_domain (dom_kind d) (plain kw)) (fun tb =>
  rbind (unpack_sizing (size_kind s)) (fun bh =>
  if negb (match fst bh with None => fst tb | Some _ => true end) then Err ValueError else
  rbind (used_domain boxed d (fst tb) (snd tb) (size_of s)) (fun d1 => Ok (d1, size_of s)))).
Definition check_call (kw : call_kw) : result unit :=
  rbind (parse_kwargs (plain kw)) (fun _ => rbind (get_num "verbose" (PInt 1) (plain kw)) (fun v => rbind (select_verbosity v) (fun _ => Ok tt))).
(** l.406-411: h0 is looked up only when the size does not bring one *)
Definition h0_of (s : size_val) (kw : call_kw) : result (option R) :=
  match s with
  | SizeFunV _ => match given "h0" kw with None => Ok None | Some v => rbind (number v) (fun x => Ok (Some x)) end
  | _ => Ok None
  end.
(** l.424-430, 890-900: an empty pfix is an array without a second axis, which cannot be joined to the corners or to the initial points *)
Definition fixed_of (d : dom_arg) (s : size_arg) (user : option (list pt)) (a : arg) : result (list pt) :=
  rbind (points_of a) (fun o =>
  match o with
  | None => Ok []
  | Some [] =>
      let joined := match dom_corners d, s with
                    | None, _ => false
                    | Some _, SScalar _ => true
                    | Some _, _ => negb (Nat.div2 (length (full_bbox d s)) =? 3)%nat
                    end in
      match user with None => Err ValueError | Some _ => if joined then Err ValueError else Ok [] end
  | Some l => Ok l
  end).
Definition with_rand (B : backend) (r : nat -> list R) : backend :=
  mkBackend (b_tri B) (b_uniqK B) (b_uniqR B) (b_key B) (b_ve B) (b_solve B) r.
Definition with_subs (o : gen_opts) (subs : option (list (pt -> R))) : gen_opts :=
  mkOpts (o_max_iter o) (o_perform_checks o) (o_pfix o) (o_points o) (o_delta_t o) (o_geps_mult o) subs (o_mesh_improvement o) (o_r0m_is_h0 o) (o_h0 o).

(** the options of generate_mesh, l.345-358, all but the subdomains *)
Definition read_options (d : dom_arg) (s : size_val) (kw : call_kw) : result gen_opts :=
  rbind (h0_of s kw) (fun h0 =>
  rbind (number (opt "geps_mult" (ANum (PFloat (1 / 10))) kw)) (fun geps =>
  rbind (points_of (opt "points" ANone kw)) (fun points =>
  rbind (fixed_of d (size_of s) points (opt "pfix" ANone kw)) (fun pfix =>
  rbind (match points with None => seed_check (opt "seed" (ANum (PInt 0)) kw) | Some _ => Ok tt end) (fun _ =>
  rbind (number (opt "max_iter" (ANum (PInt 50)) kw)) (fun mi =>
  rbind (number (opt "delta_t" (ANum (PFloat (3 / 10))) kw)) (fun dt =>
  Ok (mkOpts mi (truth (opt "perform_checks" (ABool false) kw)) pfix points dt geps None
        (truth (opt "mesh_improvement" (ABool true) kw)) (truth (opt "r0m_is_h0" (ABool false) kw)) h0)))))))).
(** generate_mesh(domain, edge_length, **kw); [rand seed n]: numpy's n random numbers after np.random.seed(seed) *)
Definition call_generate_mesh (rand : arg -> nat -> list R) (B : backend) (d : dom_val) (s : size_val) (kw : call_kw) (fuel : nat)
    : option (result (list pt * list row) * nat) :=
  match (rbind (check_call kw) (fun _ => rbind (read_domain box_fd d s kw) (fun ds => rbind (read_options (fst ds) s kw) (fun o => Ok (ds, o))))) with
  | Err e => Some (Err e, O)
  | Ok (d1, s1, o) =>
      let B1 := with_rand B (rand (opt "seed" (ANum (PInt 0)) kw)) in
      match subdomains_of kw with
      | Ok subs => generate_mesh B1 d1 s1 (with_subs o subs) fuel
      | Err e => match prepare B1 d1 s1 o with Err e' => Some (Err e', O) | Ok _ => Some (Err e, O) end
      end
  end.

(** the options of sliver_removal, l.107-121 *)
Definition read_sliver_options (s : size_val) (kw : call_kw) : result sliver_opts :=
  rbind (h0_of s kw) (fun h0 =>
  rbind (number (opt "max_iter" (ANum (PInt 50)) kw)) (fun mi =>
  rbind (number (opt "geps_mult" (ANum (PFloat (1 / 10))) kw)) (fun geps =>
  rbind (number (opt "min_dh_angle_bound" (ANum (PFloat 10)) kw)) (fun lo =>
  rbind (number (opt "max_dh_angle_bound" (ANum (PFloat 180)) kw)) (fun hi =>
  rbind (number (opt "gamma" (ANum (PFloat 1)) kw)) (fun gamma =>
  Ok (mkSliverOpts mi (truth (opt "perform_checks" (ABool false) kw)) lo hi geps gamma (truth (opt "preserve" (ABool false) kw)) h0))))))).
(** sliver_removal(points, domain, edge_length, **kw) on a rank; ranks above 0 return at once (l.100-105) *)
Definition call_sliver_removal (B : backend) (rank : nat) (points : list pt) (d : dom_val) (s : size_val) (kw : call_kw) (fuel : nat)
    : option (result (list pt * list row) * nat) + unit :=
  if (0 <? rank)%nat then inr tt else
  match (rbind (check_call kw) (fun _ =>
         if existsb (fun x => (length x =? 2)%nat) points then Err OtherError else
         rbind (read_domain cube_fd d s kw) (fun ds => rbind (read_sliver_options s kw) (fun o => Ok (ds, o))))) with
  | Err e => inl (Some (Err e, O))
  | Ok (d1, s1, o) => sliver_removal B 0 points d1 s1 o fuel
  end.
