(** Signal classes of signals.py: QPSKfromBERT (lines 951-1002) and SymbolOnlySignal (1004-1140). *)
From Coq Require Import List NArith ZArith Arith Bool Reals.
From Verif Require Import Common.Py Common.Cplx Model.Helpers Model.Gray Model.Constellation Model.Decision Model.Sync Model.Quality
  Model.Hybrid Model.Prbs.
Import ListNotations.
Local Open Scope R_scope.

(** ** QPSKfromBERT *)
(** lines 986-987: bits[:,::2] = bitsI, bits[:,1::2] = bitsQ *)
Definition interleave (p : list bool * list bool) : list bool := concat (map (fun q => [fst q; snd q]) (combine (fst p) (snd p))).
(** lines 977-984, one of the two ports: the PRBS of every mode, delayed and perhaps inverted *)
Definition bert_port (draws : nat -> N * N) (n nmodes : nat) (order : list N) (shift : Z) (invert : bool) : result (list (list bool)) :=
  let! b := PRBSBits draws n nmodes [SeedNone; SeedNone] order in
  let b := map (roll shift) b in
  Ok (if invert then map (map negb) b else b).
(** lines 972-1002; the bits and the samples.  The two ports draw independent random numbers. *)
Definition QPSKfromBERT (drawsI drawsQ : nat -> N * N) (n nmodes : nat) (prbsorders : list N * list N) (prbsshifts : Z * Z) (prbsinvert : bool * bool)
  : result (list (list bool) * list (list C)) :=
  let! mp := qam_mapping 2 in
  let! bitsI := bert_port drawsI n nmodes (fst prbsorders) (fst prbsshifts) (fst prbsinvert) in
  let! bitsQ := bert_port drawsQ n nmodes (snd prbsorders) (snd prbsshifts) (snd prbsinvert) in
  let bits := map interleave (combine bitsI bitsQ) in
  let! obj := modulate mp bits in
  Ok (bits, obj).

(** ** SymbolOnlySignal *)
Record symbol_signal := mk_symsig { y_samples : list (list C); y_coded : list C; y_M : nat; y_symbols : list (list C) }.
(** lines 1046-1058, the constructor; [pick i k] is the index chosen for sample k of mode i *)
Definition SymbolOnlySignal (pick : nat -> nat -> nat) (M n : nat) (symbols : list C) (nmodes : nat) : result symbol_signal :=
  let! obj := mapM (fun i => mapM (fun k => match symbols with [] => Err ValueError | _ => getn symbols (pick i k mod length symbols) end) (seq 0 n)) (seq 0 nmodes) in
  Ok (mk_symsig obj symbols M obj).
(** lines 1060-1079, make_decision *)
Definition symbol_decide (coded : list C) (sig : ndarray) : result (list (list C)) :=
  mapM (fun row => let! d := make_decision row coded in Ok (map (fun t => fst (fst t)) d))
    (match sig with D1 row => [row] | D2 rows => rows end).
(** lines 1081-1115, from_symbol_array *)
Definition symbol_from_array (symbs : ndarray) (coded : option (list C)) : result symbol_signal :=
  let rows := match symbs with D1 row => [row] | D2 rows => rows end in
  let coded := match coded with None => np_unique (concat rows) | Some l => l end in
  let! out := symbol_decide coded (D2 rows) in
  Ok (mk_symsig out coded (length coded) out).
(** cal_ser of SignalBase (295-335) with this class's decisions *)
Definition symbol_cal_ser (s : symbol_signal) (sig : list (list C)) (synced : bool) : result (list (option R)) :=
  let! p := signal_sync_and_adjust (y_symbols s) sig synced in
  let! dec := symbol_decide (y_coded s) (D2 (snd p)) in
  let! errs := rowwise count_diff dec (fst p) in
  Ok (map (fun n => ratio n (row_len dec)) errs).
(** cal_mi of SignalBase (509-547): without an snr it calls est_snr(rx, synced=True, symbols_tx=tx),
    which this class replaces (line 1139) by a method without these arguments *)
Definition symbol_cal_mi (s : symbol_signal) (sig : list (list C)) (synced : bool) (snr : option (list R)) (fast : bool) : result (list (option R)) :=
  let! p := signal_sync_and_adjust (y_symbols s) sig synced in
  let! n0 := (match snr with
              | None => Err TypeError
              | Some l => if (length l =? length sig)%nat then Ok (map (fun x => pow10 (- x / 10)) l)
                          else match l with [x] => Ok (repeat (pow10 (- x / 10)) (length sig)) | _ => Err ValueError end
              end) in
  mapM (fun i => let! t := getn (fst p) i in let! r := getn (snd p) i in let! x := getn n0 i in
                 Ok (core_cal_mi r t (y_coded s) x fast)) (seq 0 (length sig)).
