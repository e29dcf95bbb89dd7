(** Impairments: core/impairments.py, impairments.py, and clipper / comp_mod_sin of
    core/digital_pre_compensation.py.  Two-dimensional complex arrays are lists of rows (modes).
    Random draws are arguments.  Conversions to the precision of the input (astype) are not
    modelled: numbers are real and complex numbers. *)
From Coq Require Import List ZArith Arith Bool Reals.
From Verif Require Import Common.Py Common.Cplx Common.Dft Model.Helpers Model.Phase.
Import ListNotations.
Local Open Scope R_scope.

Definition zipc (f : C -> C -> C) (a b : list C) : list C := map (fun p => f (fst p) (snd p)) (combine a b).

(** core/impairments.py 63-82, rotate_field: np.dot of a 2x2 matrix with the array *)
Definition rotate_field (E : list (list C)) (theta : R) : result (list (list C)) :=
  match E with
  | [x; y] => Ok [zipc (fun a b => (Cscal (cos theta) a + Cscal (- sin theta) b)%C) x y;
                  zipc (fun a b => (Cscal (sin theta) a + Cscal (cos theta) b)%C) x y]
  | _ => Err ValueError
  end.

(** core/impairments.py 94-104, _applyPMD_dot; omega has one entry per sample *)
Definition spectrum (row : list C) : list C := fftshift (dft (ifftshift row)).
Definition unspectrum (row : list C) : list C := fftshift (idft (ifftshift row)).
Definition applyPMD_dot (E : list (list C)) (theta t_dgd : R) (omega : list R) : result (list (list C)) :=
  let! Sff := rotate_field (map spectrum E) theta in
  let h2 := [map (fun w => Cexpi (- (w * t_dgd / 2))) omega; map (fun w => Cexpi (w * t_dgd / 2)) omega] in
  let! Sf2 := rotate_field (map (fun p => cmul_list (fst p) (snd p)) (combine Sff h2)) (- theta) in
  Ok (map unspectrum Sf2).
(** core/impairments.py 106-129, apply_PMD_to_field *)
Definition pmd_omega (fs : R) (N : nat) : list R :=
  map (fun i => 2 * PI * (- fs / 2 + INR i * (fs / INR N))) (seq 0 N).
Definition row_length (E : list (list C)) : nat := match E with [] => 0%nat | r :: _ => length r end.
Definition apply_PMD_to_field (E : list (list C)) (theta t_dgd fs : R) : result (list (list C)) :=
  applyPMD_dot E theta t_dgd (pmd_omega fs (row_length E)).

(** core/impairments.py 188-205, add_awgn; [nr] and [ni] are the two normal draws, of the shape of
    the signal *)
Definition awgn_row (strgth : R) (p : list C * (list R * list R)) : list C :=
  map (fun q => (fst q + Cscal (strgth / sqrt 2) (snd q))%C) (combine (fst p) (combine (fst (snd p)) (snd (snd p)))).
Definition add_awgn (sig : list (list C)) (strgth : R) (nr ni : list (list R)) : list (list C) :=
  map (awgn_row strgth) (combine sig (combine nr ni)).
(** core/impairments.py 210-233, change_snr; the mean power is taken over all modes *)
Definition snr_strength (sig : list (list C)) (snr fb fs : R) : R :=
  sqrt (mean_power (concat sig)) * (Rpower 10 (- snr / 20) * sqrt (fs / fb)).
Definition change_snr (sig : list (list C)) (snr fb fs : R) (nr ni : list (list R)) : list (list C) :=
  add_awgn sig (snr_strength sig snr fb fs) nr ni.

(** core/impairments.py 259-281, add_modal_delay *)
Definition add_modal_delay (sig : list (list C)) (delay : list Z) : result (list (list C)) :=
  if (length delay =? length sig)%nat then Ok (map (fun p => roll (snd p) (fst p)) (combine sig delay))
  else Err AssertionError.

(** core/impairments.py 673-703, add_dispersion.  [fftshift] without axes shifts every axis: the
    samples of each mode and, for a two-dimensional array, also the modes. *)
Definition disp_H (N : nat) (fs D L wl0 : R) : list C :=
  map (fun f => Cexpi (- (/ 2 * (f * PI * 2) ^ 2 * (D * wl0 ^ 2 / (299792458 * PI * 2)) * L))) (fftfreq N (1 / fs)).
Definition disp_row (fs D L wl0 : R) (row : list C) : list C :=
  idft (cmul_list (dft (ifftshift row)) (disp_H (length row) fs D L wl0)).
Definition add_dispersion (sig : ndarray) (fs D L wl0 : R) : ndarray :=
  match sig with
  | D1 row => D1 (fftshift (disp_row fs D L wl0 row))
  | D2 rows => D2 (fftshift (map (fun row => fftshift (disp_row fs D L wl0 row)) rows))
  end.

(** ** Quantisers *)
(** np.linspace(lo, hi, n) *)
Definition linspace (lo hi : R) (n : nat) : list R := map (fun i => lo + INR i * ((hi - lo) / (INR n - 1))) (seq 0 n).
(** np.digitize(x, bins, right=False) for increasing bins: the number of bins <= x; nan counts as
    larger than every bin *)
Definition digitize (bins : list R) (x : option R) : nat :=
  match x with
  | None => length bins
  | Some v => length (filter (fun b => if Rle_dec b v then true else false) bins)
  end.
Definition quant_sample (levels bins : list R) (z : option C) : result C :=
  let! re := getn levels (digitize bins (option_map fst z)) in
  let! im := getn levels (digitize bins (option_map snd z)) in Ok (re, im).
Definition quant_rows (levels bins : list R) (rows : list (list (option C))) : result (list (list C)) :=
  mapM (mapM (quant_sample levels bins)) rows.

(** core/impairments.py 330-368, quantize_signal of a complex array.  With rescale the rows of the
    argument are divided in place.  Returns the output and the contents of the argument
    afterwards. *)
Definition peak_row (row : list C) : result (list (option C)) :=
  let! m := rmaxl (map Cabs row) in Ok (cdiv_row m row).
Definition quantize_signal (sig : list (list C)) (nbits : nat) (rescale re_normalize : bool)
  : result (list (list (option C)) * list (list (option C))) :=
  let! arg := (if rescale then mapM peak_row sig else Ok (map (map Some) sig)) in
  let levels := linspace (-1) 1 (2 ^ nbits) in
  let! out := quant_rows levels (removelast levels) arg in
  Ok ((if re_normalize then normalise_and_center out else map (map Some) out), arg).

(** core/impairments.py 370-413, quantize_signal_New of a complex array.  Without rescale_in the
    array that is quantised contains zeros.  The last line needs a signal object: an ndarray has no
    recreate_from_np_array. *)
Definition quantize_signal_New (is_signal : bool) (sig_in : list (list C)) (nbits : nat) (rescale_in rescale_out : bool)
  : result (list (list C)) :=
  let! sig := (if rescale_in then rescale_signal (D2 sig_in) [1] else Ok (map (map (fun _ => Some C0)) sig_in)) in
  let delta := 2 / INR (2 ^ nbits) in
  let levels_out := linspace (-1 + delta / 2) (1 - delta / 2) (2 ^ nbits) in
  let levels_dec := map (fun l => l + delta / 2) levels_out in
  let! out := quant_rows levels_out (removelast levels_dec) sig in
  let! out := (if rescale_out then
                 let! m := row_peak (concat sig_in) in Ok (map (map (Cscal m)) out)
               else Ok out) in
  if is_signal then Ok out else Err AttributeError.

(** ** Modulator *)
(** core/impairments.py 415-461, modulator_response for one sample.  A parameter without imaginary
    part is used for both quadratures. *)
Definition both (z : C) : C := if Req_EM_T (snd z) 0 then (fst z, fst z) else z.
Definition mzm (volt g c : R) : C :=
  Cscal (/ (1 + g)) (- (Cexpi (PI * volt * (1 + c) / 2) + Cscal g (Cexpi (- (PI * volt * (1 - c) / 2)))))%C.
Definition modulator_sample (dcbias gfactr cfactr : C) (dcbias_out gfactr_out : R) (z : C) : C :=
  let b := both dcbias in let g := both gfactr in let c := both cfactr in
  let e_i := mzm (fst z + fst b) (fst g) (fst c) in
  let e_q := mzm (snd z + snd b) (snd g) (snd c) in
  Cscal (/ (1 + gfactr_out))
    (Cexpi (PI / 4) * (e_i * Cexpi (- (PI * dcbias_out / 2)) + Cscal gfactr_out (e_q * Cexpi (PI * dcbias_out / 2))))%C.
Definition modulator_response (sig : list (list C)) (dcbias gfactr cfactr : C) (dcbias_out gfactr_out : R) : list (list C) :=
  map (map (modulator_sample dcbias gfactr cfactr dcbias_out gfactr_out)) sig.
(** core/impairments.py 463-475, er_to_g *)
Definition er_to_g (ext_rat : R) : R := (Rpower 10 (ext_rat / 20) - 1) / (Rpower 10 (ext_rat / 20) + 1).

(** core/impairments.py 658-671, ideal_amplifier_response; zero signals give nan *)
Definition ideal_amplifier_response (sig : list (list C)) (out_volt : R) : result (list (list (option C))) :=
  let! m := row_peak (concat sig) in Ok (map (fun row => map (option_map (Cscal out_volt)) (cdiv_row m row)) sig).

(** core/digital_pre_compensation.py 30-38, clipper *)
Definition rsign (x : R) : R := if Rlt_dec 0 x then 1 else if Rlt_dec x 0 then -1 else 0.
Definition clip1 (level x : R) : R := rsign x * Rmin (Rabs x) level.
Definition clipper (sig : list (list C)) (level : R) : list (list C) :=
  map (map (fun z => (clip1 level (fst z), clip1 level (snd z)))) sig.

(** core/digital_pre_compensation.py 40-58, comp_mod_sin: arcsin is nan outside [-1, 1].  A complex
    vpi (np.iscomplexobj) has its own value for each quadrature. *)
Definition arcsin (x : R) : option R := if Rle_dec (-1) x then if Rle_dec x 1 then Some (asin x) else None else None.
Definition comp_mod_sin_sample (vpi : C) (z : C) : option R * option R :=
  (option_map (fun a => 2 * fst vpi * a) (arcsin (fst z)), option_map (fun a => 2 * snd vpi * a) (arcsin (snd z))).

(** ** impairments.py 127-171, simulate_transmission *)
(** A signal object: samples, rates, and for a pilot signal the number of frames and the number of
    pilots (pilots.shape[1]).  All steps keep the attributes. *)
Record tx_signal := mk_tx { x_rows : list (list C); x_fs : R; x_fb : R; x_frames : option (nat * nat) }.
(** the random draws: phase noise increments and the two noise quadratures *)
Record draws := mk_draws { d_phase : list (list R); d_nr : list (list R); d_ni : list (list R) }.
Definition opt_step {A} (o : option A) (f : A -> list (list C) -> result (list (list C))) (rows : list (list C)) : result (list (list C)) :=
  match o with None => Ok rows | Some a => f a rows end.
Definition simulate_transmission (s : tx_signal) (dr : draws) (snr freq_off lwdth dgd : option R) (theta : R)
    (modal_delay : option (list Z)) (dispersion : option R) (roll_frame_sync : bool) : result (list (list C)) :=
  let fs := x_fs s in
  (* the warning for a single frame is not modelled *)
  let! r := (if roll_frame_sync then
               match x_frames s with
               | None => Err AttributeError
               | Some (_, np) => Ok (map (roll (Z.of_nat np)) (x_rows s))
               end
             else Ok (x_rows s)) in
  let! r := opt_step lwdth (fun df r => apply_phase_noise r (d_phase dr) df fs) r in
  let! r := opt_step freq_off (fun fo r => Ok (add_carrier_offset r fo fs)) r in
  let! r := opt_step snr (fun x r => Ok (change_snr r x (x_fb s) fs (d_nr dr) (d_ni dr))) r in
  let! r := opt_step modal_delay (fun d r => add_modal_delay r d) r in
  (* line 167 refers to D, which is not defined *)
  let! r := opt_step dispersion (fun _ _ => Err NameError) r in
  opt_step dgd (fun t r => apply_PMD_to_field r theta t fs) r.
