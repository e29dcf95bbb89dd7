(** core/analog_frontend.py.  Two-dimensional arrays are lists of rows (modes). *)
From Coq Require Import List ZArith Arith Bool Reals.
From Verif Require Import Common.Py Common.Cplx Common.Dft Model.Helpers Model.Phase Model.Impair.
Import ListNotations.
Local Open Scope R_scope.

(** core/analog_frontend.py 30-51, comp_IQ_inbalance.  All sums run over the whole array.  The
    first line, [signal -= np.mean(signal)], works in place: the second component of the result is
    the argument after the call.  [None]: at least the imaginary part is nan or inf in every
    sample (0/0, arcsin outside [-1,1], division by a vanishing cosine or power). *)
Definition comp_IQ_inbalance (signal : list (list C)) : option (list (list C)) * list (list C) :=
  let s := map (map (fun z => (z - Cmean (concat signal))%C)) signal in
  let flat := concat s in
  let sII := Rsum (map (fun z => fst z ^ 2) flat) in
  let sIQ := Rsum (map (fun z => fst z * snd z) flat) in
  let out :=
    if Req_EM_T sII 0 then None else
    match arcsin (- (sIQ / sII)) with
    | None => None
    | Some phi =>
        if Req_EM_T (cos phi) 0 then None else
        let qb := fun z : C => (snd z + sin phi * fst z) / cos phi in
        let sQQ := Rsum (map (fun z => qb z ^ 2) flat) in
        if Req_EM_T sQQ 0 then None
        else Some (map (map (fun z => (fst z, qb z * sqrt (sII / sQQ)))) s)
    end in
  (out, s).

(** core/analog_frontend.py 54-88, comp_rf_delay of a real signal, one row per mode *)
Definition rf_delay_row (delay sampling_rate : R) (row : list R) : list R :=
  let f := fftfreq (length row) (sampling_rate / 2) in
  map fst (idft (cmul_list (map (fun v => Cexpi (- (2 * PI * delay * v))) f) (dft (map RtoC row)))).
Definition comp_rf_delay (sig : list (list R)) (delay sampling_rate : R) : list (list R) :=
  map (rf_delay_row delay sampling_rate) sig.

(** core/analog_frontend.py 91-132, orthonormalize_signal; [None]: the row is filled with nan.
    A step of zero in [::os] raises ValueError. *)
Definition ortho_row (os : nat) (row : list C) : option (list C) :=
  let re := map fst row in let im := map snd row in
  let real_out := map (fun x => x - Rmean re) re in
  let tmp_imag := map (fun x => x - Rmean im) im in
  let pI := Rmean (map (fun x => x ^ 2) real_out) in
  let pQ := Rmean (map (fun x => x ^ 2) tmp_imag) in
  let imb := Rmean (map (fun p => fst p * snd p) (combine real_out tmp_imag)) in
  if Req_EM_T pI 0 then None else
  if Req_EM_T pQ 0 then None else
  let sig_out := map (fun p => (fst p / sqrt pI, (snd p - imb * fst p / pI) / sqrt pQ)) (combine real_out tmp_imag) in
  let e := map (fun z => (z - Cmean (stride os sig_out))%C) sig_out in
  let p := Rmean (map Cnorm2 (stride os e)) in
  if Req_EM_T p 0 then None else Some (map (fun z => Cscal (/ sqrt p) z) e).
Definition orthonormalize_signal (E : list (list C)) (os : nat) : result (list (option (list C))) :=
  match os with O => Err ValueError | _ => Ok (map (ortho_row os) E) end.
