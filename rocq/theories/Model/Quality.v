(** Quality metrics: signals.py 295-547 (methods of SignalBase), core/signal_quality.py,
    core/pythran_dsp.py 3-23, 87-135, 180-197, 242-316.

    Rates are [option R]: None stands for a value that is not a finite number (0/0, x/0). *)
From Coq Require Import List ZArith Arith Bool Reals.
From Verif Require Import Common.Py Common.Cplx Model.Gray Model.Constellation Model.Decision Model.Sync.
Import ListNotations.
Local Open Scope R_scope.

(** ** error rates *)
Definition ratio (a b : nat) : option R := if (b =? 0)%nat then None else Some (INR a / INR b).
(** np.count_nonzero(a - b) of two rows; rows of different lengths do not broadcast (a length of 1
    is left out) *)
Definition count_diff (a b : list C) : result nat :=
  if negb (length a =? length b)%nat then Err ValueError else
  Ok (length (filter (fun p => if Ceq_dec (fst p - snd p)%C C0 then false else true) (combine a b))).
Definition count_xor (a b : list bool) : result nat :=
  if negb (length a =? length b)%nat then Err ValueError else
  Ok (length (filter (fun p => xorb (fst p) (snd p)) (combine a b))).
Definition rowwise {A B D} (f : A -> B -> result D) (a : list A) (b : list B) : result (list D) :=
  if negb (length a =? length b)%nat then Err ValueError else mapM (fun p => f (fst p) (snd p)) (combine a b).

(** signals.py 847-870 without verbose *)
Definition signal_decide (mp : mapping) (sig : list (list C)) : result (list (list C)) :=
  let! d := signal_make_decision mp sig in Ok (map (map (fun t => fst (fst t))) d).

(** signals.py 295-335 *)
Definition cal_ser (mp : mapping) (symbols sig : list (list C)) (synced : bool) : result (list (option R)) :=
  let! p := signal_sync_and_adjust symbols sig synced in
  let! dec := signal_decide mp (snd p) in
  let! errs := rowwise count_diff dec (fst p) in
  Ok (map (fun n => ratio n (row_len dec)) errs).
(** signals.py 337-379 *)
Definition cal_ber (mp : mapping) (symbols sig : list (list C)) (synced : bool) : result (list (option R)) :=
  let! p := signal_sync_and_adjust symbols sig synced in
  let! rb := demodulate mp (snd p) in
  let! tb := demodulate mp (fst p) in
  let! errs := rowwise count_xor tb rb in
  Ok (map (fun n => ratio n (row_len rb)) errs).

(** ** EVM, signals.py 381-421 *)
Definition evm_row (a b : list C) : result (option R) :=
  if negb (length a =? length b)%nat then Err ValueError else
  match a with
  | [] => Ok None
  | _ => Ok (Some (sqrt (Rmean (map (fun p => Cnorm2 (fst p - snd p)%C) (combine a b)))))
  end.
Definition cal_evm (mp : mapping) (symbols sig : list (list C)) (synced blind : bool) : result (list (option R)) :=
  if blind then
    let! dec := signal_decide mp sig in rowwise evm_row dec sig
  else
    let! p := signal_sync_and_adjust symbols sig synced in rowwise evm_row (fst p) (snd p).

(** ** core/signal_quality.py 122-258: EVM on a signal normalised by estimated signal power.
    np.unique with counts (line 230) groups equal summands; the sum is the same. *)
Definition cal_gamma (nbits : nat) : R :=
  Rmean (map (fun z => (Cabs (ZtoC z) / sqrt (cal_scaling_factor_qam nbits)) ^ 4) (cal_symbols_qam nbits)).
(** cal_s0: None if some step is not a finite number *)
Definition cal_s0 (e : list C) (nbits : nat) : option R :=
  match e with
  | [] => None
  | _ =>
    let g := cal_gamma nbits in
    let r2 := Rmean (map (fun z => Cabs z ^ 2) e) in
    let r4 := Rmean (map (fun z => Cabs z ^ 4) e) in
    if Req_EM_T r4 0 then None else
    let rad := (2 - g) * (2 * r2 ^ 4 / r4 ^ 2 - r2 ^ 2 / r4) in
    if Rlt_dec rad 0 then None else
    let S1 := 1 - 2 * r2 ^ 2 / r4 - sqrt rad in
    let S2 := g * r2 ^ 2 / r4 - 1 in
    if Req_EM_T S1 0 then None else
    if Req_EM_T (1 + S2 / S1) 0 then None else
    Some (r2 / (1 + S2 / S1))
  end.
Definition norm_to_s0 (e : list C) (nbits : nat) : option (list C) :=
  match cal_s0 e nbits with
  | None => None
  | Some s0 => if Rlt_dec 0 s0 then Some (map (Cscal (/ sqrt s0)) e) else None
  end.
(** np.min over a non-empty alphabet *)
Definition min_dist2 (x : C) (l : list C) : option R :=
  match l with [] => None | s :: l' => Some (fold_left (fun m t => Rmin m (Cnorm2 (x - t)%C)) l' (Cnorm2 (x - s)%C)) end.
Fixpoint all_some {A} (l : list (option A)) : option (list A) :=
  match l with
  | [] => Some []
  | None :: _ => None
  | Some a :: l' => match all_some l' with Some r => Some (a :: r) | None => None end
  end.
Definition core_evm_blind (sig : list C) (nbits : nat) : option R :=
  match norm_to_s0 (map ZtoC (cal_symbols_qam nbits)) nbits, norm_to_s0 sig nbits with
  | Some pi, Some pm =>
      match all_some (map (fun x => min_dist2 x pi) pm) with
      | Some ds => Some (sqrt (Rmean ds / Rmean (map Cnorm2 pi)))
      | None => None
      end
  | _, _ => None
  end.
Definition core_evm (sig : list C) (nbits : nat) (known : option (list C)) : option R :=
  match known with
  | None => core_evm_blind sig nbits
  | Some kn =>
      match norm_to_s0 kn nbits, norm_to_s0 sig nbits with
      | Some pi, Some ps =>
          Some (sqrt (Rmean (map (fun p => Cnorm2 (fst p - snd p)%C) (combine pi ps)) / Rmean (map Cnorm2 pi)))
      | _, _ => None
      end
  end.

(** ** core/pythran_dsp.py 15-23: like the equaliser's det_symbol, but the symbol is unbound when
    nothing is nearer than 1000 (squared) *)
Fixpoint dsp_det_symbol_loop (x : C) (symbs : list C) (s : option C) (d0 : R) : option C * R :=
  match symbs with
  | [] => (s, d0)
  | t :: l => let d := Cnorm2 (x - t)%C in
              if Rlt_dec d d0 then dsp_det_symbol_loop x l (Some t) d else dsp_det_symbol_loop x l s d0
  end.
Definition dsp_det_symbol (x : C) (symbs : list C) : option C * R := dsp_det_symbol_loop x symbs None 1000.

(** ** SNR estimate, pythran_dsp.py 244-286: signal and noise power; None if a symbol of the
    alphabet does not occur (mean of an empty array) or nothing was received *)
Definition Csel (rx tx : list C) (s : C) : list C :=
  map fst (filter (fun p => if Ceq_dec (snd p) s then true else false) (combine rx tx)).
Fixpoint snr_loop (rx tx : list C) (alphabet : list C) (ps pn : R) : option (R * R) :=
  match alphabet with
  | [] => Some (ps, pn)
  | a :: rest =>
      let sel := Csel rx tx a in
      match sel with
      | [] => None
      | _ =>
          let K := INR (length sel) in
          let Px := K / INR (length rx) in
          let mu := Cmean sel in
          let sigma := sqrt (Rsum (map (fun z => Cnorm2 (z - mu)%C) sel) / K) in
          snr_loop rx tx rest (ps + Cnorm2 mu * Px) (pn + sigma ^ 2 * Px)
      end
  end.
Definition estimate_snr (rx tx alphabet : list C) : option (R * R) := snr_loop rx tx alphabet 0 0.
Definition snr_value (p : option (R * R)) : option R :=
  match p with Some (ps, pn) => if Req_EM_T pn 0 then None else Some (ps / pn) | None => None end.
(** signals.py 423-456, verbose: (S, N) per mode *)
Definition est_snr (mp : mapping) (symbols sig : list (list C)) (synced : bool) : result (list (option (R * R))) :=
  let! p := signal_sync_and_adjust symbols sig synced in
  mapM (fun i => let! r := getn (snd p) i in let! t := getn (fst p) i in
                 Ok (estimate_snr r t (coded_symbols mp))) (seq 0 (length sig)).

(** ** soft demapper, pythran_dsp.py 87-135; a row of the bit map is (symbols with bit 0, with bit 1) *)
Definition exp_dists (x : C) (snr : R) (l : list C) : R := Rsum (map (fun s => exp (- snr * Cabs (s - x)%C ^ 2)) l).
Definition cal_l_value (row : list C * list C) (rx : C) (snr : R) : R :=
  ln (exp_dists rx snr (snd row)) - ln (exp_dists rx snr (fst row)).
Definition lim_min (x : C) (l : list C) : R :=
  fold_left (fun m s => let d := Cabs (s - x)%C ^ 2 in if Rlt_dec d m then d else m) l 10000.
Definition find_minmax (row : list C * list C) (rx : C) : R * R := (lim_min rx (snd row), lim_min rx (fst row)).
Definition minmax_l_value (row : list C * list C) (rx : C) (snr : R) : R :=
  let (tmp, tmp2) := find_minmax row rx in snr * (tmp2 - tmp).
Definition soft_l_value_demapper (minmax : bool) (rx : list C) (nbits : nat) (snr : R) (bm : list (list C * list C)) : result (list (list R)) :=
  mapM (fun x => mapM (fun b => let! row := getn bm b in
          Ok (if minmax then minmax_l_value row x snr else cal_l_value row x snr)) (seq 0 nbits)) rx.

(** ** GMI, signals.py 458-507 *)
Definition log2 (x : R) : R := ln x / ln 2.
Definition pow10 (x : R) : R := exp (x * ln 10).
(** the SNR per mode in linear units; [snr] in dB, broadcast to the number of modes *)
Definition gmi_snr (mp : mapping) (tx rx : list (list C)) (nmodes : nat) (snr : option (list R)) : result (list (option R)) :=
  match snr with
  | None => let! s := est_snr mp tx rx true in Ok (map snr_value s)
  | Some l => if (length l =? nmodes)%nat then Ok (map (fun x => Some (pow10 (x / 10))) l)
              else match l with [x] => Ok (repeat (Some (pow10 (x / 10))) nmodes) | _ => Err ValueError end
  end.
Definition gmi_bit (bits : list bool) (lvals : list R) : R :=
  1 - Rmean (map (fun p : bool * R => log2 (1 + exp ((if fst p then -1 else 1) * snd p))) (combine bits lvals)).
(** column b of a list of rows *)
Definition column {A} (b : nat) (rows : list (list A)) : result (list A) := mapM (fun r => getn r b) rows.
Definition gmi_mode (mp : mapping) (nbits : nat) (minmax : bool) (rx : list C) (bits : list bool) (snr : option R) : result (option (list R)) :=
  match snr with
  | None => Ok None
  | Some s =>
      let! lv := soft_l_value_demapper minmax rx nbits s (bitmap_mtx mp) in
      match lv with
      | [] => Ok None
      | _ =>
          let! rows := reshape nbits bits in
          let! g := mapM (fun b => let! bc := column b rows in let! lc := column b lv in
                 if (length bc =? length lc)%nat then Ok (gmi_bit bc lc) else Err ValueError) (seq 0 nbits) in
          Ok (Some g)
      end
  end.
(** GMI per bit for every mode; the GMI of a mode is the sum *)
Definition cal_gmi (mp : mapping) (nbits : nat) (symbols sig : list (list C)) (synced : bool) (snr : option (list R)) (minmax : bool)
  : result (list (option (list R))) :=
  let! p := signal_sync_and_adjust symbols sig synced in
  let! s := gmi_snr mp (fst p) (snd p) (length sig) snr in
  let! bits := demodulate mp (fst p) in
  mapM (fun i => let! r := getn (snd p) i in let! b := getn bits i in let! x := getn s i in
                 gmi_mode mp nbits minmax r b x) (seq 0 (length sig)).

(** ** MI, pythran_dsp.py 289-316 and signals.py 509-547; N0 <> 0 *)
Definition cal_mi_mc (noise symbols : list C) (N0 : R) : option R :=
  match noise, symbols with
  | _ :: _, _ :: _ =>
    let M := INR (length symbols) in let L := INR (length noise) in
    let tot := Rsum (map (fun si => Rsum (map (fun z =>
       log2 (Rsum (map (fun sj => exp (- (Cabs (si - sj)%C ^ 2 + 2 * fst ((si - sj) * z)%C) / N0)) symbols))) noise)) symbols) in
    Some (log2 M - tot / M / L)
  | _, _ => None
  end.
Definition cal_mi_mc_fast (sig sig_tx symbols : list C) (N0 : R) : option R :=
  match sig with
  | [] => None
  | _ =>
    let tot := Rsum (map (fun p => log2 (Rsum (map (fun s => exp (- (Cabs (fst p - s)%C ^ 2 - Cabs (fst p - snd p)%C ^ 2) / N0)) symbols)))
                         (combine sig sig_tx)) in
    Some (log2 (INR (length symbols)) - tot / INR (length sig))
  end.
Definition core_cal_mi (sig tx symbols : list C) (N0 : R) (fast : bool) : option R :=
  if fast then cal_mi_mc_fast sig tx symbols N0
  else cal_mi_mc (map (fun p => (fst p - snd p)%C) (combine sig tx)) symbols N0.
(** N0 per mode; None: estimated from the signal *)
Definition mi_n0 (mp : mapping) (tx rx : list (list C)) (nmodes : nat) (snr : option (list R)) : result (list (option R)) :=
  match snr with
  | None => let! s := est_snr mp tx rx true in
            Ok (map (fun p => match p with Some (ps, pn) => if Req_EM_T ps 0 then None else if Req_EM_T pn 0 then None else Some (/ (ps / pn)) | None => None end) s)
  | Some l => if (length l =? nmodes)%nat then Ok (map (fun x => Some (pow10 (- x / 10))) l)
              else match l with [x] => Ok (repeat (Some (pow10 (- x / 10))) nmodes) | _ => Err ValueError end
  end.
Definition cal_mi (mp : mapping) (symbols sig : list (list C)) (synced : bool) (snr : option (list R)) (fast : bool) : result (list (option R)) :=
  let! p := signal_sync_and_adjust symbols sig synced in
  let! n0 := mi_n0 mp (fst p) (snd p) (length sig) snr in
  mapM (fun i => let! t := getn (fst p) i in let! r := getn (snd p) i in let! x := getn n0 i in
                 Ok (match x with Some v => core_cal_mi r t (coded_symbols mp) v fast | None => None end)) (seq 0 (length sig)).

(** ** Monte Carlo GMI, pythran_dsp.py 6-13 and 180-197; [z] are the noise samples *)
Definition cal_exp_sum (sym : C) (syms : list C) (z : C) (sigma : R) : R :=
  Rsum (map (fun s => exp (- sigma * (2 * fst (z * (sym - s))%C + Cabs (sym - s)%C ^ 2))) syms).
Definition cal_gmi_mc (symbols : list C) (nbits : nat) (snr : R) (z : list C) (bm : list (list C * list C)) : result R :=
  let! parts := mapM (fun k => let! row := getn bm k in
     Ok (Rsum (map (fun l : list C => Rsum (map (fun zz => Rsum (map (fun sym =>
             log2 (cal_exp_sum sym symbols zz snr / cal_exp_sum sym l zz snr)) l)) z)) [fst row; snd row])))
     (seq 0 nbits) in
  Ok (INR nbits - Rsum parts / (INR (length symbols) * INR (length z))).
