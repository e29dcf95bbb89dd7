(** core/ber_functions.py 322-394, and the small functions of core/utils.py 28-53 and 202-229. *)
From Coq Require Import List ZArith Arith Bool Reals.
From Verif Require Import Common.Py Common.Cplx Model.Sync.
Import ListNotations.
Local Open Scope R_scope.

(** lines 322-356 for boolean arrays of one length.  Comparing arrays of different lengths depends on
    the numpy version (one difference, or an exception): not modelled, [ValueError]. *)
Definition cal_ber_syncd (data_rx data_tx : list bool) (threshold : R) : result (R * nat * nat) :=
  if negb (length data_rx =? length data_tx)%nat then Err ValueError else
  let errs := length (filter (fun p => negb (Bool.eqb (fst p) (snd p))) (combine data_rx data_tx)) in
  let N := length data_tx in
  if (N =? 0)%nat then Err ZeroDivisionError else
  let ber := INR errs / INR N in
  if Rlt_dec threshold ber then Err ValueError else Ok (ber, errs, N).

(** lines 359-394: find_sequence_offset does not raise DataSyncError, and data_tx_sync is read before
    it is assigned *)
Definition bits_to_C (l : list bool) : list C := map (fun b : bool => if b then C1 else C0) l.
Definition cal_ber_nosyncd (data_rx data_tx : list bool) : result (R * nat * nat) :=
  let! idx := find_sequence_offset (bits_to_C data_tx) (bits_to_C data_rx) in
  Err UnboundLocalError.

(** utils.py 28-31 without the limit of the recursion depth: a negative argument never gets to 0 *)
Fixpoint factorial_rec (n : nat) : Z := match n with O => 1%Z | S n' => (Z.of_nat n * factorial_rec n')%Z end.
Definition factorial (n : Z) : result Z := if (n <? 0)%Z then Err RecursionError else Ok (factorial_rec (Z.to_nat n)).

(** np.arange(start, stop, step): ceil((stop-start)/step) values *)
Definition ceilR (x : R) : Z := (- Int_part (- x))%Z.
Definition arange (start stop step : R) : result (list R) :=
  if Req_EM_T step 0 then Err ZeroDivisionError
  else Ok (map (fun i => start + INR i * step) (seq 0 (Z.to_nat (ceilR ((stop - start) / step))))).
(** utils.py 34-53 *)
Definition linspacestep (start step : R) (N : Z) : result (list R) := arange start (start + IZR N * step) step.

(** utils.py 202-229: with true division the second dimension is a float, which reshape rejects *)
Definition convert_iqtosinglebitstream (idat qdat : list bool) (nbits : Z) : result (list bool) :=
  let n0 := (if (nbits mod 2 =? 0) then nbits / 2 else nbits / 2 + 1)%Z in
  if (n0 =? 0)%Z then Err ZeroDivisionError else Err TypeError.
