(** Transmitter simulation: core/impairments.py 477-656 (DAC, transmitter), the Bessel and
    Butterworth branches of core/filter.py filter_signal, and comp_dac_resp of
    core/digital_pre_compensation.py.  Signals are complex arrays (modes, samples); filter
    coefficients designed by scipy and file contents are arguments. *)
From Coq Require Import List ZArith Arith Bool Reals.
From Verif Require Import Common.Py Common.Cplx Common.Dft Model.Helpers Model.Impair Model.Filters.
Import ListNotations.
Local Open Scope R_scope.

(** ** Second-order sections *)
(** one row (b0, b1, b2, 1, a1, a2) of a scipy "sos" array *)
Record section := mk_sec { s_b0 : R; s_b1 : R; s_b2 : R; s_a1 : R; s_a2 : R }.
(** scipy.signal.sosfilt, one section (transposed direct form II) with the two delays z0, z1 *)
Fixpoint biquad (s : section) (z0 z1 : C) (x : list C) : list C :=
  match x with
  | [] => []
  | v :: x' => let y := (Cscal (s_b0 s) v + z0)%C in
               y :: biquad s (Cscal (s_b1 s) v - Cscal (s_a1 s) y + z1)%C (Cscal (s_b2 s) v - Cscal (s_a2 s) y)%C x'
  end.
(** all sections, initially at rest *)
Definition sosfilt (sos : list section) (x : list C) : list C := fold_left (fun r s => biquad s C0 C0 r) sos x.
(** 1/z of a complex number *)
Definition Cinv (z : C) : C := Cscal (/ Cnorm2 z) (Cconj z).
(** scipy.signal.sosfreqz(sos, worN=n, whole=True): the response at 2*pi*k/n *)
Definition sec_resp (s : section) (w : R) : C :=
  let z := Cexpi (- w) in
  ((RtoC (s_b0 s) + Cscal (s_b1 s) z + Cscal (s_b2 s) (z * z)) * Cinv (C1 + Cscal (s_a1 s) z + Cscal (s_a2 s) (z * z)))%C.
Definition sosfreqz (sos : list section) (n : nat) : list C :=
  map (fun k => fold_left (fun h s => (h * sec_resp s (2 * PI * INR k / INR n))%C) sos C1) (seq 0 n).

(** the filter types with a scipy design; any other name leaves [system] unbound (line 137) *)
Inductive filter_type := Bessel | Butter | OtherType.
(** scipy's design of a digital low pass: type, order, cutoff, sampling rate *)
Definition design := filter_type -> nat -> R -> R -> result (list section).
(** core/filter.py 86-147, filter_signal for ftype other than "gauss" and "exp", analog=False *)
Definition filter_sos (des : design) (sig : ndarray) (fs cutoff : R) (ftype : filter_type) (order : nat) : result ndarray :=
  let! system := (match ftype with OtherType => Err UnboundLocalError | _ => des ftype order cutoff fs end) in
  match sig with
  | D1 row => Ok (D1 (concat (map (sosfilt system) [row])))
  | D2 rows => Ok (D2 (map (sosfilt system) rows))
  end.

(** ** Effective number of bits *)
(** core/impairments.py 551-587, apply_enob_as_awgn(verbose=True) of a complex signal.  An empty
    signal raises ValueError (max of nothing); log10 of nan (zero signal) is [None]. *)
Definition enob_noise_power (x_max enob : R) : R := (x_max / Rpower 2 (enob - 1)) ^ 2 / 12.
Definition apply_enob_as_awgn (sig : list (list C)) (enob : R) (nr ni : list (list R)) : result (list (list C) * option R) :=
  let powsig_mean := mean_power (concat sig) in
  let! x_max := row_peak (concat sig) in
  let pn := enob_noise_power x_max enob in
  Ok (add_awgn sig (sqrt (2 * pn)) nr ni, if Req_EM_T pn 0 then None else lin2dB (powsig_mean / 2 / pn)).
(** the same for a real signal: only the real part of the noise is kept (astype) *)
Definition apply_enob_as_awgn_real (sig : list (list R)) (enob : R) (nr ni : list (list R)) : result (list (list R) * option R) :=
  let powsig_mean := Rmean (map (fun x => Rabs x ^ 2) (concat sig)) in
  let! x_max := rmaxl (map Rabs (concat sig)) in
  let pn := enob_noise_power x_max enob in
  Ok (map (fun p => map (fun q => fst q + fst (Cscal (sqrt (2 * pn) / sqrt 2) (snd q))) (combine (fst p) (combine (fst (snd p)) (snd (snd p)))))
        (combine sig (combine nr ni)),
      if Req_EM_T pn 0 then None else lin2dB (powsig_mean / 2 / pn)).

(** ** Measured DAC response *)
(** one row of the file: frequency, magnitude, phase *)
Record dac_row := mk_row { r_f : R; r_mag : R; r_ph : R }.
Definition dac_resp (r : dac_row) : C := Cscal (r_mag r) (Cexpi (r_ph r)).
(** lines 611-615: the spectrum copied to negative frequencies, as interpolation nodes *)
Definition dac_nodes (rows : list dac_row) : list (R * C) :=
  combine (rev (map (fun r => - r_f r) (tl rows)) ++ map r_f rows)
          (rev (map (fun r => Cconj (dac_resp r)) (tl rows)) ++ map dac_resp rows).
(** scipy.interpolate.interp1d(kind='linear', bounds_error=False) for increasing nodes *)
Fixpoint interp_from (nodes : list (R * C)) (fill : C) (v : R) : C :=
  match nodes with
  | (x0, y0) :: (((x1, y1) :: _) as rest) =>
      if Rle_dec v x1 then (Cscal ((v - x0) / (x1 - x0)) (y1 - y0) + y0)%C else interp_from rest fill v
  | _ => fill
  end.
Definition interp1d (nodes : list (R * C)) (fill : C) (v : R) : C :=
  match nodes with
  | (x0, _) :: _ => if Rlt_dec v x0 then fill else interp_from nodes fill v
  | [] => fill
  end.
(** core/impairments.py 589-620, load_dac_response for a channel in the file: rows with increasing
    frequencies (other tables are not modelled) *)
Definition load_dac_response (rows : list dac_row) (fs : R) (N : nat) : result (list C) :=
  let! r320 := getn rows 320 in
  Ok (map (fun f => interp1d (dac_nodes rows) (RtoC (r_mag r320)) (f * fs)) (fftfreq N 1)).

(** core/impairments.py 518-549, apply_DAC_filter; [fn] is the content of the file, or None.  On
    line 546 the response is converted with astype(sig), where an array is not a dtype. *)
Definition apply_DAC_filter (des : design) (sig : list (list C)) (fs cutoff : R) (fn : option (list dac_row)) : result (list (list C)) :=
  match fn with
  | None => let! r := filter_sos des (D2 sig) fs cutoff Bessel 2 in
            match r with D2 rows => Ok rows | D1 row => Ok [row] end
  | Some rows => let! _ := load_dac_response rows fs (row_length sig) in Err TypeError
  end.

(** ** DAC and transmitter *)
(** np.isclose(a, b) *)
Definition isclose (a b : R) : bool := if Rle_dec (Rabs (a - b)) (/ 100000000 + / 100000 * Rabs b) then true else false.
(** no nan in an array *)
Fixpoint all_some {A} (l : list (option A)) : option (list A) :=
  match l with
  | [] => Some []
  | None :: _ => None
  | Some a :: l' => option_map (cons a) (all_some l')
  end.
Definition no_nan (X : list (list (option C))) : option (list (list C)) := all_some (map all_some X).
(** the settings of the DAC: clip_rat, quant_bits, enob, and (cutoff, fn) unless dac_params is empty *)
Record dac_settings := mk_dac { q_clip : R; q_bits : nat; q_enob : R; q_filter : option (R * option (list dac_row)) }.
(** lines 504-508 *)
Definition dac_clip (sig : list (list C)) (clip_rat : R) : result (option (list (list C))) :=
  if isclose clip_rat 1 then Ok (Some sig)
  else if Req_EM_T clip_rat 0 then Err ZeroDivisionError
  else let! r := rescale_signal (D2 sig) [1 / clip_rat] in Ok (option_map (fun s => clipper s 1) (no_nan r)).
(** core/impairments.py 477-516, sim_DAC_response of a signal object.  Once a mode is nan (all
    samples zero, when clipping) the result is given as [None]. *)
Definition sim_DAC_response (des : design) (sig : list (list C)) (fs : R) (q : dac_settings) (nr ni : list (list R))
  : result (option (list (list C))) :=
  let! c := dac_clip sig (q_clip q) in
  match c with
  | None => Ok None
  | Some s =>
      let! s := (if (q_bits q =? 0)%nat then Ok s else quantize_signal_New true s (q_bits q) true true) in
      let! s := (if isclose (q_enob q) 0 then Ok s else let! r := apply_enob_as_awgn s (q_enob q) nr ni in Ok (fst r)) in
      let! s := (match q_filter q with None => Ok s | Some (cutoff, fn) => apply_DAC_filter des s fs cutoff fn end) in
      Ok (Some s)
  end.
(** the parameters of the modulator *)
Record mod_settings := mk_mod { m_bias : C; m_gain : C; m_chirp : C; m_bias_out : R; m_gain_out : R }.
(** core/impairments.py 622-656, sim_tx_response; [None] is nan *)
Definition sim_tx_response (des : design) (sig : list (list C)) (fs tgt_v : R) (q : dac_settings) (p : mod_settings) (nr ni : list (list R))
  : result (option (list (list C))) :=
  let! d := sim_DAC_response des sig fs q nr ni in
  match d with
  | None => Ok None
  | Some s =>
      let! a := ideal_amplifier_response s tgt_v in
      Ok (option_map (fun s => modulator_response s (m_bias p) (m_gain p) (m_chirp p) (m_bias_out p) (m_gain_out p)) (no_nan a))
  end.

(** ** Pre-compensation of the DAC *)
(** core/digital_pre_compensation.py 58-96, comp_dac_resp; 0/0 is [None] *)
Definition comp_dac_resp (des : design) (dpe_fb : R) (sim_len : nat) (rrc_beta PAPR cutoff : R) (order : nat) (enob os : R)
  : result (list (option C)) :=
  let dpe_fs := dpe_fb * os in
  if Req_EM_T dpe_fb 0 then Err ZeroDivisionError else
  let! rrc := rrcos_freq (map (fun f => f * dpe_fs) (fftfreq sim_len 1)) rrc_beta (1 / dpe_fb) in
  let! m := rmaxl rrc in
  let n_f := map (fun v => (v / m) ^ 2) rrc in
  let! sys := des Bessel order cutoff dpe_fs in
  let d_f := sosfreqz sys sim_len in
  let df := dpe_fs / INR sim_len in
  let alpha := Rpower 10 (PAPR / 10) / (6 * dpe_fb * Rpower 2 (2 * enob))
               * Rsum (map (fun p => Cabs (snd p) ^ 2 * fst p * df) (combine n_f d_f)) in
  Ok (map (fun p => let den := fst p * Cabs (snd p) ^ 2 + alpha in
                    if Req_EM_T den 0 then None else Some (Cscal (fst p / den) (Cconj (snd p)))) (combine n_f d_f)).
