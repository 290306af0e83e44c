(** C17: reading binary velocity files.  [source_offset o ao nz nx ny i j k] is the file position of the sample
    shown at (i,j,k). *)
From Coq Require Import List Arith Lia.
From Verif Require Import Model.Base Model.ReadBin Proofs.ReadBinProofs.
Import ListNotations.

(** the array returned has shape (nz,nx,ny) and shows every file sample at exactly one position *)
Theorem C17_binary_files_unpacked_without_loss : forall A (d : A) file bo nz nx ny ao o sh g,
  read_bin d file bo (Some nz) (Some nx) (Some ny) ao o = Ok (sh, g) ->
  sh = [nz; nx; ny] /\ length file = nz * nx * ny /\
  exists at_ : nat -> nat -> nat -> nat,
    (forall i j k, i < nz -> j < nx -> k < ny -> at_ i j k < nz * nx * ny /\ g i j k = nth (at_ i j k) file d) /\
    (forall q, q < nz * nx * ny ->
       exists i j k, (i < nz /\ j < nx /\ k < ny /\ at_ i j k = q) /\
         forall i' j' k', i' < nz -> j' < nx -> k' < ny -> at_ i' j' k' = q -> i' = i /\ j' = j /\ k' = k).
Proof.
  intros A d file bo nz nx ny ao o sh g H.
  destruct (read_bin_inv d file bo nz nx ny ao o sh g H) as (HL & HP & -> & ->).
  split; [reflexivity|]. split; [exact HL|]. exists (source_offset o ao nz nx ny). split.
  - intros i j k Hi Hj Hk. split; [apply source_range; assumption|reflexivity].
  - intros q Hq. destruct (source_surj o ao nz nx ny q HP Hq) as (i & j & k & Hi & Hj & Hk & E).
    exists i, j, k. split; [auto|]. intros i' j' k' Hi' Hj' Hk' E'.
    apply (source_inj o ao nz nx ny i' j' k' i j k HP Hi' Hj' Hk' Hi Hj Hk). congruence.
Qed.
Print Assumptions C17_binary_files_unpacked_without_loss.

(** for every permutation: axis ao[m] of the file runs over axis m (0=z flipped, 1=x, 2=y) of the result;
    F order: first file axis fastest, C order: last file axis fastest *)
Theorem C17_layout : forall o ao nz nx ny i j k, is_perm3 ao = true ->
  exists m0 m1 m2 a b c,
    (forall q, q < 3 -> nth (nth q ao 0) [m0; m1; m2] 0 = nth q [nz; nx; ny] 0) /\
    (forall q, q < 3 -> nth (nth q ao 0) [a; b; c] 0 = nth q [nz - 1 - i; j; k] 0) /\
    source_offset o ao nz nx ny i j k = match o with OrdF => a + m0 * (b + m1 * c) | OrdC => (a * m1 + b) * m2 + c end.
Proof. exact source_layout. Qed.
Print Assumptions C17_layout.

(** the default axes order with Fortran sort: position (i,j,k) shows the sample at row nz-1-i *)
Theorem C17_default_layout : forall nz nx ny i j k,
  source_offset OrdF [0; 1; 2] nz nx ny i j k = (nz - 1 - i) + nz * (j + nx * k) /\
  source_offset OrdC [0; 1; 2] nz nx ny i j k = ((nz - 1 - i) * nx + j) * ny + k.
Proof. exact (fun _ _ _ _ _ _ => conj eq_refl eq_refl). Qed.
Print Assumptions C17_default_layout.

(** every permutation and sort style is accepted when the sample count matches *)
Theorem C17_accepts : forall A (d : A) file nz nx ny ao o,
  length file = nz * nx * ny -> is_perm3 ao = true ->
  exists r, read_bin d file true (Some nz) (Some nx) (Some ny) ao o = Ok r.
Proof. exact (fun A => @read_bin_ok A). Qed.
Print Assumptions C17_accepts.

Example C17_case : is_perm3 [2; 0; 1] = true /\
  exists sh g, read_bin 0 (seq 0 24) true (Some 2) (Some 3) (Some 4) [2; 0; 1] OrdC = Ok (sh, g) /\ g 0 1 2 = 13.
Proof. split; [reflexivity|]. do 2 eexists. split; reflexivity. Qed.
