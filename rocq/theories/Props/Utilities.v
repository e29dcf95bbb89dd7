(** Properties C128-C130: bit error counting and the small functions of core/utils.py. *)
From Coq Require Import List ZArith Arith Bool Reals Lia Lra.
From Verif Require Import Common.Py Common.Cplx Model.BitErr Spec.BitErrS Proofs.BitErrP.
Import ListNotations.
Local Open Scope R_scope.

(** C128.  Full statement: cal_ber_syncd returns the number of differing bits and its ratio to the
    length, or raises ValueError above the threshold; cal_ber_nosyncd does the same after
    synchronisation.  The second function never returns. *)
Theorem C128_count : forall rx tx thr, length rx = length tx -> (0 < length tx)%nat ->
  let e := bit_errors (length tx) rx tx in
  cal_ber_syncd rx tx thr =
  if Rle_dec (INR e) (thr * INR (length tx)) then Ok (INR e / INR (length tx), e, length tx) else Err ValueError.
Proof. exact ber_count. Qed.
Print Assumptions C128_count.
Theorem C128_same : forall tx thr, (0 < length tx)%nat -> 0 <= thr -> cal_ber_syncd tx tx thr = Ok (0, 0%nat, length tx).
Proof. exact ber_same. Qed.
Print Assumptions C128_same.
Theorem C128_inverted : forall rx tx out e n, length rx = length tx -> cal_ber_syncd rx tx 1 = Ok (out, e, n) ->
  exists out', cal_ber_syncd (map negb rx) tx 1 = Ok (out', (n - e)%nat, n) /\ out + out' = 1.
Proof. exact ber_inverted. Qed.
Print Assumptions C128_inverted.
Theorem C128_unsynchronised_refuted : forall rx tx, (forall out, cal_ber_nosyncd rx tx <> Ok out) /\
  (rx <> [] -> tx <> [] -> cal_ber_nosyncd rx tx = Err UnboundLocalError).
Proof. intros rx tx. split; [exact (ber_nosync_never rx tx)|exact (ber_nosync_unbound rx tx)]. Qed.
Print Assumptions C128_unsynchronised_refuted.

Example C128_case : cal_ber_syncd [true; false; true; true] [true; true; true; true] (1 / 2) = Ok (1 / 4, 1%nat, 4%nat) /\
  cal_ber_syncd [true; false; true; true] [true; true; true; true] (1 / 5) = Err ValueError.
Proof.
  split.
  - rewrite C128_count by (cbn; lia). change (bit_errors _ _ _) with 1%nat. cbn [length]. destruct (Rle_dec _ _) as [_|K].
    + replace (INR 1 / INR 4) with (1 / 4) by (cbn [INR]; field). reflexivity.
    + exfalso. apply K. cbn [INR]. lra.
  - rewrite C128_count by (cbn; lia). change (bit_errors _ _ _) with 1%nat. cbn [length]. destruct (Rle_dec _ _) as [K|_]; [|reflexivity].
    exfalso. cbn [INR] in K. lra.
Qed.

(** C129.  linspacestep has N values (none for negative N) start, start+step, ...; factorial is n!. *)
Theorem C129_linspacestep : forall start step N, step <> 0 -> exists l, linspacestep start step N = Ok l /\
  length l = Z.to_nat N /\ forall i, (i < Z.to_nat N)%nat -> nth_error l i = Some (start + INR i * step).
Proof. exact linspacestep_spec. Qed.
Print Assumptions C129_linspacestep.
Theorem C129_factorial : forall n, exists f, factorial (Z.of_nat n) = Ok f /\ is_factorial n f.
Proof. exact factorial_spec. Qed.
Print Assumptions C129_factorial.

Example C129_case : factorial 6 = Ok 720%Z /\ factorial (-1) = Err RecursionError.
Proof. split; reflexivity. Qed.

(** C130.  Full statement: convert_iqtosinglebitstream interleaves two bit streams.  It never returns. *)
Theorem C130_refuted : forall idat qdat nbits, (forall out, convert_iqtosinglebitstream idat qdat nbits <> Ok out) /\
  ((0 < nbits)%Z -> convert_iqtosinglebitstream idat qdat nbits = Err TypeError).
Proof. intros i q n. split; [exact (iq_interleave_never i q n)|exact (iq_interleave_type i q n)]. Qed.
Print Assumptions C130_refuted.

Example C130_case : convert_iqtosinglebitstream [true; false] [false; false] 2 = Err TypeError.
Proof. reflexivity. Qed.
