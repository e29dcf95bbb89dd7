(** Resampling: core/resample.py and signals.py 223-237.  Rates are rational numbers (floats are),
    their quotient is exact.  scipy.signal.resample_poly is an argument. *)
From Coq Require Import List ZArith QArith Qabs Qreals Reals.
From Verif Require Import Common.Py Common.Cplx Model.Helpers Model.Filters Model.Fractions.
Import ListNotations.
Local Open Scope R_scope.

Section Resample.
(** scipy.signal.resample_poly(x, up, down, window) *)
Variable poly : list C -> Z -> Z -> option (list R) -> result (list C).

(** lines 32-34 *)
Definition resamplingfactors (fold fnew : Q) : result (Z * Z) :=
  if Qeq_bool fold 0 then Err ZeroDivisionError else
  let! r := fraction_of (fnew / fold) in Ok (Qnum r, QDen r).
(** sig_new = np.zeros(up*size); sig_new[::up] = signal, lines 111-112 *)
Definition zero_insert (up : Z) (x : list C) : result (list C) :=
  if (up <=? 0)%Z then Err ValueError else Ok (flat_map (fun z => z :: repeat C0 (Z.to_nat up - 1)) x).
(** lines 67-69 and 123-125 *)
Definition renorm (renormalise : bool) (signal new : list C) : list (option C) :=
  if renormalise then map (option_map (Cscal (sqrt (mean_power signal)))) (nc_row new) else map Some new.
(** lines 37-70 *)
Definition resample_poly (signal : list C) (fold fnew : Q) (window : option (list R)) (renormalise : bool) : result (list (option C)) :=
  let! f := resamplingfactors fold fnew in
  let! new := poly signal (fst f) (snd f) window in
  Ok (renorm renormalise signal new).
(** lines 72-126 *)
Definition rrcos_resample (signal : list C) (fold fnew : Q) (Ts beta : option R) (taps : option nat) (renormalise fftconv : bool) : result (list (option C)) :=
  match beta with
  | None => resample_poly signal fold fnew None false
  | Some beta =>
      if Rlt_dec 0 beta then
        if Rle_dec beta 1 then
          let! T := (match Ts with
                     | Some T => Ok T
                     | None => if Qeq_bool fold 0 then Err ZeroDivisionError else Ok (1 / Q2R fold)
                     end) in
          let! f := resamplingfactors fold fnew in
          let fup := IZR (fst f) * Q2R fold in
          let! new := (match fftconv, taps with
                       | false, Some n =>
                           let! nqf := rrcos_time (filter_times n fup) beta T in
                           let! mx := rmaxl nqf in
                           poly signal (fst f) (snd f) (Some (map (fun v => v / mx) nqf))
                       | _, _ =>
                           let! z := zero_insert (fst f) signal in
                           let! z := rrcos_pulseshaping z fup T beta taps in
                           Ok (stride (Z.to_nat (snd f)) z)
                       end) in
          Ok (renorm renormalise signal new)
        else Err AssertionError
      else Err AssertionError
  end.

(** signals.py 223-237 without the attributes (those are in SignalObj).  np.isclose(os, 1) is
    |os - 1| <= 1e-8 + 1e-5. *)
Definition close_to_one (r : Q) : bool := Qle_bool (Qabs (r - 1)) (1001 # 100000000).
Definition resample_rows (arr : list (list C)) (fnew fold fb : Q) (Ts beta : option R) (taps : option nat) (renormalise fftconv : bool) : result (list (list (option C))) :=
  if Qeq_bool fold 0 then Err ZeroDivisionError else
  if close_to_one (fnew / fold) then Ok (map (map Some) arr) else
  let! T := (match Ts with
             | Some T => Ok T
             | None => if Qeq_bool fb 0 then Err ZeroDivisionError else Ok (1 / Q2R fb)
             end) in
  mapM (fun row => rrcos_resample row fold fnew (Some T) beta taps renormalise fftconv) arr.
End Resample.
