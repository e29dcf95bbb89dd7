(** Blind estimators: core/signal_quality.py 200-304, core/phaserecovery.py 222-433 (two-stage blind
    phase search, 16-QAM partitioning, frequency offset search) and phaserec.py. *)
From Coq Require Import String List ZArith Arith Bool Reals.
From Verif Require Import Common.Py Common.Cplx Common.Angle Common.Dft Model.Constellation Model.Sync Model.Quality
  Model.Equaliser Model.Phase Model.Hybrid.
Import ListNotations.
Open Scope list_scope.
Local Open Scope R_scope.

(** ** core/signal_quality.py 234-258, cal_s0, with the factor gamma as an argument: with
    [cal_gamma nbits] it is [Quality.cal_s0].  None if some step is not a finite number. *)
Definition moments (e : list C) : R * R := (Rmean (map (fun z => Cabs z ^ 2) e), Rmean (map (fun z => Cabs z ^ 4) e)).
Definition s1_s2 (g : R) (e : list C) : option (R * R) :=
  match e with
  | [] => None
  | _ =>
    let (r2, r4) := moments e in
    if Req_EM_T r4 0 then None else
    let rad := (2 - g) * (2 * r2 ^ 4 / r4 ^ 2 - r2 ^ 2 / r4) in
    if Rlt_dec rad 0 then None else
    Some (1 - 2 * r2 ^ 2 / r4 - sqrt rad, g * r2 ^ 2 / r4 - 1)
  end.
Definition s0_of (g : R) (e : list C) : option R :=
  match s1_s2 g e with
  | None => None
  | Some (S1, S2) =>
      if Req_EM_T S1 0 then None else
      if Req_EM_T (1 + S2 / S1) 0 then None else Some (fst (moments e) / (1 + S2 / S1))
  end.
(** 200-226, cal_snr_qam *)
Definition cal_snr_qam (e : list C) (nbits : nat) : option R :=
  match s1_s2 (cal_gamma nbits) e with
  | None => None
  | Some (S1, S2) => if Req_EM_T S2 0 then None else Some (S1 / S2)
  end.

(** z**(1/4): exp(log(z)/4) with the principal logarithm *)
Definition fourth_root (z : C) : C := if Ceq_dec z C0 then C0 else Cscal (sqrt (sqrt (Cabs z))) (Cexpi (Carg z / 4)).
(** 261-272, cal_snr_blind_qpsk *)
Definition cal_snr_blind_qpsk (e : list C) : option R :=
  let eref := map (fun z => fourth_root (- Cpow z 4)%C) e in
  match eref with
  | [] => None
  | _ =>
    let P := Rmean (map Cnorm2 eref) in
    let var := Rmean (map (fun z => Cnorm2 (z - Cmean eref)%C) eref) in
    if Req_EM_T var 0 then None else
    if Rlt_dec 0 (P / var) then Some (10 * (ln (P / var) / ln 10)) else None
  end.

Local Open Scope string_scope.
(** 47-73, make_decision, as far as the choice of the method; arrayfire is not available *)
Definition decision_method (method : string) : result unit :=
  if method =? "pyt" then Ok tt
  else if method =? "af" then Err NotImplementedError
  else Err ValueError.
(** 275-297, cal_ser_qam: the default method is "pyx".  With "pyt" the order M (an integer) is passed
    as the array of symbols, a type the compiled function does not take. *)
Definition cal_ser_qam (data_rx symbol_tx : list C) (M : Z) (method : string) : result R :=
  let! _ := decision_method method in Err TypeError.
Local Close Scope string_scope.

(** ** core/phaserecovery.py 385-433, find_freq_offset *)
(** 408-409: the size itself if it is a power of two, otherwise the next one; log2(0) is -inf *)
Definition fft_length (n : nat) : result nat := match n with O => Err OverflowError | _ => Ok (2 ^ Nat.log2_up n)%nat end.
(** np.fft.fft(x, n): cut or padded with zeros *)
Definition resize (n : nat) (x : list C) : list C := firstn n x ++ repeat C0 (n - length x).
(** one mode, 415-424; [fftfreq n (1/os)] with 1/os a ZeroDivisionError for os = 0 *)
Definition offset_of_row (n os : nat) (row : list C) : result R :=
  let spec := map (fun z => Cabs z ^ 2) (dft (resize n (map (fun z => Cpow z 4) row))) in
  let! k := argmax (map Rabs spec) in
  getn (map (fun f => f / 4) (fftfreq n (1 / INR os))) k.
Definition find_freq_offset (sig : list (list C)) (os : nat) (average : bool) (fft_size : nat) : result (list R) :=
  let! n := fft_length fft_size in
  if (os =? 0)%nat then Err ZeroDivisionError else
  let! fo := mapM (offset_of_row n os) sig in
  Ok (if average then map (fun _ => Rmean fo) fo else fo).

(** ** core/phaserecovery.py 222-288, bps_twostage *)
(** np.linspace(-B/2, B/2, B) *)
Definition fine_steps (B : nat) : list R :=
  map (fun k => - (INR B / 2) + INR k * (if (B =? 1)%nat then 0 else INR B / INR (B - 1))) (seq 0 B).
(** line 270; B = 0 leaves no candidates *)
Definition fine_angles (M B : nat) (ph : list R) : list (list R) :=
  map (fun p => map (fun b => p + b / (INR B * INR M) * PI / 2) (fine_steps B)) ph.
Definition twostage_phase (fct : list C -> list (list R) -> list C -> nat -> result (list nat))
           (M : nat) (symbols : list C) (N B : nat) (row : list C) : result (list R) :=
  let! idx := fct row [test_angles M] symbols N in
  let! ph := select_angles [test_angles M] idx in
  let phn := fine_angles M B ph in
  let! idx2 := fct row phn symbols N in
  let! phf := select_angles phn idx2 in
  Ok (map (fun x => x / 4) (unwrap (map (fun x => x * 4) phf))).
Definition bps_twostage (E : list (list C)) (M : nat) (symbols : list C) (N B : nat) (method : string)
  : result (list (list C) * list (list R)) :=
  let! fct := bps_fct method in
  let! ph := mapM (twostage_phase fct M symbols N B) E in
  let! out := rotate_rows E ph in
  Ok (out, ph).

(** ** core/phaserecovery.py 292-325, partition_16qam: the mask of class 1; class 2 is the rest.
    cal_s0 gets 1.32 as the order: cal_symbols_qam(1.32) is a single point, which is divided by its
    own modulus, so gamma is 1/1.32. *)
Definition partition_gamma : R := 1 / (132 / 100).
Definition partition_16qam (e : list C) : option (list bool) :=
  match s0_of partition_gamma e with
  | None => None
  | Some s0 =>
      if Rlt_dec s0 0 then None else
      let inner := (sqrt (s0 / 5) + sqrt s0) / 2 in
      let outer := (sqrt (9 * s0 / 5) + sqrt s0) / 2 in
      Some (map (fun z => if Rlt_dec (Cabs z) inner then true else if Rlt_dec outer (Cabs z) then true else false) e)
  end.
(** 328-383, phase_partition_16qam.  np.min of two complex arrays orders by real, then imaginary part. *)
Definition Cmin (a b : C) : C := if Clex b a then b else a.
Definition dphi : R := PI / 4 + atan (1 / 3).
(** one block: samples with their class-1 flag *)
Definition block_phase (blk : list (C * bool)) : R :=
  let s1 := Csum (map (fun p : C * bool => if snd p then Cpow (fst p) 4 else C0) blk) in
  let tmp := map (fun p : C * bool => Cmin (s1 - Cpow (fst p * Cexpi dphi) 4)%C (s1 - Cpow (fst p * Cexpi (- dphi)) 4)%C)
                 (filter (fun p : C * bool => negb (snd p)) blk) in
  Carg (s1 + Csum tmp)%C.
(** blocks of n samples; the last one may be shorter *)
Fixpoint blocks {A} (fuel n : nat) (l : list A) : list (list A) :=
  match fuel, l with
  | S fuel, _ :: _ => firstn n l :: blocks fuel n (skipn n l)
  | _, _ => []
  end.
Definition partition_phase (nblock : nat) (row : list C) : result (list R) :=
  if (nblock =? 0)%nat then Err ValueError else
  match partition_16qam row with
  | None => Err NotImplementedError (* not a number: not modelled further *)
  | Some mask => Ok (flat_map (fun b => repeat (block_phase b) (length b)) (blocks (length row) nblock (combine row mask)))
  end.
(** the samples of every mode are rotated by phi_est of the last one *)
Definition phase_partition_16qam (E : list (list C)) (nblock : nat) : result (list (list C) * list (list R)) :=
  let! phis := mapM (partition_phase nblock) E in
  match rev phis with
  | [] => Err UnboundLocalError
  | phi_est :: _ =>
      let! out := mapM (fun row => rotate_row row (map Ropp phi_est)) E in
      Ok (out, map (fun phi => map (fun p => p / 4 - PI / 4) (unwrap phi)) phis)
  end.
