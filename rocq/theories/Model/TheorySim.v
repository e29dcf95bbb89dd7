(** theory.py 250-334 (BER of hybrid formats, Monte Carlo GMI and MI) and signals.py 1747-1750, corr_foe. *)
From Coq Require Import String List ZArith Arith Bool Reals.
From Verif Require Import Common.Py Common.Cplx Model.Constellation Model.Helpers Model.Phase Model.Quality.
Import ListNotations.
Local Open Scope R_scope.

(** the names bound in the module theory.py, lines 22-334 *)
Definition theory_globals : list string :=
  ["division"; "np"; "erfc"; "q_function"; "pythran_dsp"; "bin2gray"; "dB2lin"; "ser_vs_es_over_n0_qam"; "ber_vs_evm_qam";
   "ber_vs_es_over_n0_qam"; "ser_vs_es_over_n0_psk"; "ser_vs_es_over_n0_4pam"; "cal_symbols_qam"; "cal_symbols_psk";
   "cal_scaling_factor_qam"; "cal_symbols_square_qam"; "cal_symbols_cross_qam"; "gray_code_qam"; "cal_ps_probablts";
   "generate_ps_symbols"; "hybrid_qam_ber_vs_esn0"; "cal_gmi"; "sim_mi_mc"]%string.
(** 277-280 with the function found as theory.MQAM_BERvsEsN0; M1, M2 > 0 *)
Definition hybrid_expr (found : result (R -> R -> R)) (snr pr fr M1 M2 : R) : result R :=
  let snr := pow10 (snr / 10) in
  let bps1 := log2 M1 in
  let bps2 := log2 M2 in
  let! ber := found in
  Ok (1 / ((1 - fr) * bps1 + fr * bps2) *
      ((1 - fr) * bps1 * ber (snr / ((1 - fr) + fr * pr)) M1 + fr * bps2 * ber (pr * snr / ((1 - fr) + fr * pr)) M2)).
(** 250-280; no module of the package has a function of that name, so a bound [theory] would give an AttributeError *)
Definition hybrid_qam_ber_vs_esn0 (snr pr fr M1 M2 : R) : result R :=
  hybrid_expr (if existsb (String.eqb "theory") theory_globals then Err AttributeError else Err NameError) snr pr fr M1 M2.

(** 282-310, cal_gmi for M = 2^k and a one-dimensional list of SNRs; [g] are the complex standard normal
    draws (two real ones each) per SNR, from pythran_dsp.py 187-188.  No draws: nan ([None]). *)
Definition gmi_noise (snr : R) (g : list C) : list C := map (fun z => Cscal (sqrt (1 / snr) / sqrt 2) z) g.
Definition theory_cal_gmi (k : nat) (snr : list R) (g : list (list C)) : result (list (option R)) :=
  let! mp := qam_mapping k in
  mapM (fun p : R * list C =>
          let lin := pow10 (fst p / 10) in
          match snd p with
          | [] => Ok None
          | _ => let! v := cal_gmi_mc (coded_symbols mp) k lin (gmi_noise lin (snd p)) (bitmap_mtx mp) in Ok (Some v)
          end) (combine snr g).

(** 312-334, sim_mi_mc of a complex array: the caller's array afterwards and the result; [g] are the draws *)
Definition sim_mi_mc (symbols : list C) (snr : R) (g : list C) : list (option C) * option R :=
  let p := mean_power symbols in
  if Req_EM_T p 0 then (map (fun _ => None) symbols, None) else
  let symbols := map (Cscal (/ sqrt p)) symbols in
  let N0 := pow10 (- snr / 10) in
  (map Some symbols, cal_mi_mc (map (Cscal (sqrt (N0 / 2))) g) symbols N0).

(** signals.py 1747-1750.  The attribute _foe: never set (None), the integer 0, or the offsets per mode
    stored by sync2frame.  Result: the new content of the array and the attribute afterwards. *)
Inductive foe := NoFoe | ZeroFoe | FoeArr (l : list R).
Definition corr_foe (rows : list (list C)) (os : R) (f : foe) (additional : R) : result (list (list C)) * foe :=
  match f with
  | FoeArr l => (comp_freq_offset rows (map (fun _ => Rsum l / INR (length l) + additional) l) os, ZeroFoe)
  | _ => (Err AttributeError, f)
  end.
