(** Reading SEG-Y files and write_velocity_model (sizing/mesh_size_function.py l.242-336, 590-646).  A SEG-Y file is what segyio
    shows of it: the number of samples per trace and the traces (all of that length).  A raw file is its list of decoded samples
    (Model/ReadBin.v).  The hdf5 writer is h5py: it stores the array given to it, converted to float32 ([rnd]). *)
From Coq Require Import String List Reals Bool Arith.
From Verif Require Import Model.Base Model.ReadBin Model.Sizing.
Import ListNotations.
Local Open Scope R_scope.

(** l.601: str.endswith *)
Definition ends_with (suf s : string) : bool :=
  (String.length suf <=? String.length s)%nat && String.eqb (String.substring (String.length s - String.length suf) (String.length suf) s) suf.

(** l.633-646 *)
Definition read_segy (nz : nat) (traces : list (list R)) : garr :=
  mkArr 2 nz (length traces) 1 (fun i j _ => nth (nz - 1 - i) (nth j traces []) 0).

(** what is stored under a file name *)
Inductive stored := SegyFile (nz : nat) (traces : list (list R)) | RawFile (samples : list R).
Record read_opts := mkRead { r_order_ok : bool; r_nz : option nat; r_nx : option nat; r_ny : option nat; r_axes : list nat; r_sort : order }.
(** l.590-606.  [asraw]: the decoded samples numpy finds in a SEG-Y file read as raw floats (headers included); segyio refuses a
    file that is not SEG-Y. *)
Definition read_velocity_model (asraw : stored -> list R) (name : string) (f : stored) (ro : read_opts) : result garr :=
  if ends_with ".segy" name then
    match f with SegyFile nz tr => Ok (read_segy nz tr) | RawFile _ => Err OtherError end
  else
    match read_bin 0 (match f with RawFile l => l | SegyFile _ _ => asraw f end) (r_order_ok ro) (r_nz ro) (r_nx ro) (r_ny ro) (r_axes ro) (r_sort ro) with
    | Ok (sh, g) => Ok (mkArr 3 (nth 0 sh O) (nth 1 sh O) (nth 2 sh O) g)
    | Err e => Err e
    end.

(** options of write_velocity_model used by its body; unit and any other option are accepted and not looked at (l.283-308) *)
Record write_opts := mkWrite { w_read : read_opts; w_domain_pad : R; w_pad_style : padstyle; w_bbox : option bbox; w_units : units; w_other : list string }.
(** an hdf5 file: name, dataset "velocity_model", attribute "units" (the attribute "shape" is the shape of the dataset) *)
Record hdf5 := mkHdf5 { h_name : string; h_data : garr; h_units : string }.
(** l.310-336; [None]: the rank writes nothing *)
Definition write_velocity_model (rnd : R -> R) (asraw : stored -> list R) (rank : nat) (name : string) (f : stored) (ofname : option string) (w : write_opts)
    : sizing_result (option hdf5) :=
  if (rank =? 0)%nat then
    match read_velocity_model asraw name f (w_read w) with
    | Err e => SzErr e
    | Ok vp =>
        sbind (if Rgtb (w_domain_pad w) 0 then
                 match w_bbox w with
                 | None => SzErr OtherError                                                     (* l.328: KeyError *)
                 | Some b => sbind (domain_pad vp vp b (w_pad_style w) (w_domain_pad w)) (fun r => SzOk (snd (fst r)))
                 end
               else SzOk vp) (fun vp' =>
        SzOk (Some (mkHdf5 (String.append (match ofname with Some n => n | None => name end) ".hdf5") (amap rnd vp') "m/s")))
    end
  else SzOk None.
