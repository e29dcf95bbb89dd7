(** The arrayfire variant of the blind phase search: core/phaserecovery.py 161-211.  bps selects it with
    method="af" when the package arrayfire is installed (lines 126-130); [Model.Phase] is the code without
    that package.

    The arrayfire calls are modelled by what they compute: accum is the cumulative sum along the first
    axis, min and imin are the minimum and the position of the first minimum along an axis, abs and
    broadcast work entry by entry.  An empty arrayfire array is an error (arrayfire's own exception class,
    modelled as ValueError).  The conversions of the number type (astype) are left out. *)
From Coq Require Import List ZArith Arith Bool Reals.
From Verif Require Import Common.Py Common.Cplx Common.Angle Model.Decision Model.Pilots Model.Phase.
Import ListNotations.
Local Open Scope R_scope.

Definition af_nonempty {A} (l : list A) : result (list A) :=
  match l with [] => Err ValueError | _ => Ok l end.
(** lines 161-166 *)
Definition movavg_af (X : list (list R)) (N : Z) : result (list (list R)) :=
  let cs := match X with [] => [] | d :: l => d :: cumsum_rows d l end in
  let! hi := af_nonempty (pyslice_from N cs) in
  let! lo := af_nonempty (pyslice_to (- N) cs) in
  if (length hi =? length lo)%nat then Ok (map (fun p => row_op Rminus (fst p) (snd p)) (combine hi lo))
  else Err ValueError.
(** lines 178-181, 189-193, 196-199, 201-204: the positions of the least moving averages of some rows of EE *)
Definition af_block (Eaf : list (list C)) (symbols : list C) (N : nat) : result (list nat) :=
  let! tmp := mapM (mapM (fun e => row_min (map (fun s => Cabs (e - s)%C ^ 2) symbols))) Eaf in
  let! cs := movavg_af tmp (2 * Z.of_nat N) in
  mapM argmin cs.
(** lines 195-200 *)
Fixpoint af_blocks (EE : list (list C)) (symbols : list C) (N : nat) (Nmax : Z) (is : list nat) (idxnd : list nat)
  : result (list nat) :=
  match is with
  | [] => Ok idxnd
  | i0 :: is' =>
      let i := Z.of_nat i0 in
      let! idx := af_block (pyslice (i * Nmax - Z.of_nat N) ((i + 1) * Nmax + Z.of_nat N) EE) symbols N in
      let! idxnd' := slice_assign (i * Nmax) ((i + 1) * Nmax) idx idxnd in
      af_blocks EE symbols N Nmax is' idxnd'
  end.
(** lines 168-206; NMAX is the module variable of line 38 *)
Definition bps_idx_af (NMAX : Z) (E : list C) (angles : list (list R)) (symbols : list C) (N : nat) : result (list nat) :=
  let! ntest := (match angles with [] => Err IndexError | r :: _ => Ok (length r) end) in
  let! q := (if (ntest =? 0)%nat || (length symbols =? 0)%nat then Err ZeroDivisionError
             else Ok (NMAX / Z.of_nat ntest / Z.of_nat (length symbols))%Z) in
  let Nmax := (q / 16)%Z in
  let L := length E in
  let! rows := (if (length angles =? 1)%nat then
                  let! r := getn angles 0 in Ok (repeat r L)
                else if (length angles =? L)%nat then Ok angles else Err ValueError) in
  let EE := map (fun p => map (fun a => fst p * Cexpi a)%C (snd p)) (combine E rows) in
  let idxnd := repeat 0%nat L in
  let n := Z.of_nat N in
  if (Z.of_nat L <=? Nmax + n)%Z then
    let! idx := af_block EE symbols N in
    slice_assign n (- n) idx idxnd
  else if (Nmax =? 0)%Z then Err ZeroDivisionError
  else
    let K0 := (Z.of_nat L / Nmax)%Z in
    let R0 := (Z.of_nat L mod Nmax)%Z in
    let '(R, K) := (if (R0 <? n)%Z then (R0 + Nmax, K0 - 1) else (R0, K0))%Z in
    let! idx := af_block (pyslice 0 (Nmax + n) EE) symbols N in
    let! idxnd := slice_assign n Nmax idx idxnd in
    let! idxnd := af_blocks EE symbols N Nmax (seq 1 (Z.to_nat K - 1)) idxnd in
    let! idx := af_block (pyslice (K * Nmax - n) (K * Nmax + R) EE) symbols N in
    slice_assign (K * Nmax) (- n) idx idxnd.

(** bps (92-158) with the routine chosen by method="af" *)
Definition core_bps_af (NMAX : Z) (E : list (list C)) (M : nat) (symbols : list C) (N : nat)
  : result (list (list C) * list (list R)) :=
  let! ph := mapM (bps_phase (bps_idx_af NMAX) M symbols N) E in
  let! out := rotate_rows E ph in
  Ok (out, ph).
