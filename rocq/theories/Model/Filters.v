(** Filters: core/special_fcts.py (raised cosines), core/filter.py, filtering.py and CDcomp of
    core/equalisation/equalisation.py.  Rates, widths and roll-offs are Python numbers: a division
    by zero raises. *)
From Coq Require Import List ZArith Arith Bool Reals.
From Verif Require Import Common.Py Common.Cplx Common.SumX Common.Dft Model.Helpers Model.Impair.
Import ListNotations.
Local Open Scope R_scope.

(** ** Raised cosines *)
(** core/special_fcts.py 134-143, rcos_freq at one frequency *)
Definition rcos_at (beta T f : R) : R :=
  if Rle_dec (Rabs f) ((1 - beta) / (2 * T)) then T
  else if Rle_dec (Rabs f) ((1 + beta) / (2 * T)) then T / 2 * (1 + cos (PI * T / beta * (Rabs f - (1 - beta) / (2 * T))))
  else 0.
Definition rcos_freq (f : list R) (beta T : R) : result (list R) :=
  if Req_EM_T T 0 then Err ZeroDivisionError else
  if Req_EM_T beta 0 then Err ZeroDivisionError else Ok (map (rcos_at beta T) f).
(** core/special_fcts.py 146-169, rrcos_freq.  For negative T the values are negative and numpy
    gives nan, where [sqrt] is 0: no theorem covers T < 0. *)
Definition rrcos_freq (f : list R) (beta T : R) : result (list R) :=
  let! rc := rcos_freq f beta T in Ok (map sqrt rc).
(** core/special_fcts.py 172-203, rrcos_time; [dt] is t[1]-t[0].  0/0 and x/0 only arise at
    t = 0 and |t| = |T/(4 beta)|, which lie within eps of the two replaced points. *)
Definition rrcos_time_at (beta T dt t : R) : R :=
  if Rlt_dec (Rabs (Rabs t - Rabs (T / (4 * beta)))) (Rabs dt / 4)
  then beta / (T * sqrt 2) * ((1 + 2 / PI) * sin (PI / (4 * beta)) + (1 - 2 / PI) * cos (PI / (4 * beta)))
  else if Rlt_dec (Rabs t) (Rabs dt / 4) then 1 / T * (1 + beta * (4 / PI - 1))
  else 1 / T * ((sin (PI * t / T * (1 - beta)) + 4 * beta * t / T * cos (PI * t / T * (1 + beta)))
                / (PI * t / T * (1 - (4 * beta * t / T) ^ 2))).
Definition rrcos_time (t : list R) (beta T : R) : result (list R) :=
  if Req_EM_T T 0 then Err ZeroDivisionError else
  let! t0 := getn t 0 in let! t1 := getn t 1 in
  if Req_EM_T beta 0 then Err ZeroDivisionError else Ok (map (rrcos_time_at beta T (t0 - t1)) t).

(** scipy.signal.fftconvolve(a, b, 'same'): the middle of the full convolution, as long as [a] *)
Definition conv_same (a : list C) (b : list R) : list C :=
  let off := ((length b - 1) / 2)%nat in
  map (fun i => csum (length a) (fun j =>
         if (j <=? i + off)%nat then
           if (i + off - j <? length b)%nat then Cscal (nth (i + off - j) b 0) (nth j a C0) else C0
         else C0)) (seq 0 (length a)).

(** core/filter.py 149-175, _rrcos_pulseshaping_freq of a one-dimensional signal *)
Definition rrcos_pulseshaping_freq (sig : list C) (fs T beta : R) : result (list C) :=
  let f := map (fun v => v * fs) (fftfreq (length sig) 1) in
  let! nyq := rrcos_freq f beta T in
  let! mx := rmaxl nyq in
  Ok (idft (cmul_list (dft sig) (map (fun v => RtoC (v / mx)) nyq))).
(** core/filter.py 177-212, rrcos_pulseshaping of a one-dimensional signal *)
Definition filter_times (taps : nat) (fs : R) : list R :=
  map (fun i => (INR i - INR ((taps - 1) / 2)) / fs) (seq 0 taps).
Definition rrcos_pulseshaping (sig : list C) (fs T beta : R) (taps : option nat) : result (list C) :=
  match taps with
  | None => rrcos_pulseshaping_freq sig fs T beta
  | Some n =>
      let! nqt := rrcos_time (filter_times n fs) beta T in
      let! mx := rmaxl nqt in
      Ok (conv_same sig (map (fun v => v / mx) nqt))
  end.
(** filtering.py 96-118, rrcos_pulseshaping of a one-dimensional signal object: sampling rate fs,
    symbol rate fb *)
Definition rrcos_pulseshaping_sig (sig : list C) (fs fb beta : R) (T : option R) : result (list C) :=
  rrcos_pulseshaping sig fs (match T with None => fb | Some T => T end) beta (Some 1001%nat).

(** ** Rectangular filters *)
(** int(x) of a real number *)
Definition truncR (x : R) : Z := if Rle_dec 0 x then Int_part x else (- Int_part (- x))%Z.
(** a zero array of length n with a[lo:hi] = 1 *)
Definition box (n : nat) (lo hi : Z) : list C :=
  map (fun i => if (clipz (Z.of_nat n) lo <=? Z.of_nat i)%Z && (Z.of_nat i <? clipz (Z.of_nat n) hi)%Z then C1 else C0)
    (seq 0 n).
(** core/filter.py 28-48, pre_filter *)
Definition pre_filter_row (bw : R) (row : list C) : list C :=
  let c := truncR (INR (length row) / (bw / 2)) in
  idft (ifftshift (cmul_list (fftshift (dft row)) (box (length row) c (- c)))).
Definition pre_filter (sig : list (list C)) (bw : R) : result (list (list C)) :=
  if Req_EM_T bw 0 then Err ZeroDivisionError else Ok (map (pre_filter_row bw) sig).
(** core/filter.py 51-83, pre_filter_wdm: the name [sig] does not exist *)
Definition pre_filter_wdm (signal : list C) (bw os center_freq : R) : result (list C) := Err NameError.

(** ** Gaussian and exponential filters *)
(** core/filter.py 109-127, filter_signal for the types "gauss" and "exp".  [fftshift] without
    axes also shifts the modes. *)
Definition filter_freqs (fs : R) (N : nat) : list R := map (fun i => - fs / 2 + INR i * (fs / INR N)) (seq 0 N).
Definition gauss_gain (cutoff f : R) : R := let w := cutoff / (2 * sqrt (2 * ln 2)) in exp (- (f ^ 2) / (2 * w ^ 2)).
Definition exp_gain (cutoff f : R) : R := let w := cutoff / sqrt (2 * ln 2 ^ 2) in exp (- sqrt (f ^ 2 / (2 * w ^ 2))).
Definition shift_all (X : list (list C)) : list (list C) := fftshift (map fftshift X).
Definition filter_gauss (sig : ndarray) (fs cutoff : R) : ndarray :=
  let g := fun N => map (fun f => RtoC (gauss_gain cutoff f)) (filter_freqs fs N) in
  let fsig := fun row => cmul_list (fftshift (dft (fftshift row))) (g (length row)) in
  match sig with
  | D1 row => D1 (concat (shift_all (map idft (shift_all [fsig row]))))
  | D2 rows => D2 (shift_all (map idft (shift_all (map fsig rows))))
  end.
Definition filter_exp (sig : ndarray) (fs cutoff : R) : result ndarray :=
  let g := fun N => let l := map (exp_gain cutoff) (filter_freqs fs N) in
                    let! m := rmaxl l in Ok (map (fun v => RtoC (v / m)) l) in
  match sig with
  | D1 row => let! h := g (length row) in
              Ok (D1 (fftshift (idft (fftshift (cmul_list (fftshift (dft (fftshift row))) h)))))
  | D2 rows => let! h := g (row_length rows) in
               Ok (D2 (shift_all (map idft (shift_all (map (fun r => cmul_list r h) (shift_all (map dft (shift_all rows))))))))
  end.

(** ** Chromatic dispersion compensation *)
(** x[lo:hi] = v with numpy broadcasting *)
Definition slice_set (lo hi : Z) (v l : list C) : result (list C) :=
  let n := Z.of_nat (length l) in
  let a := Z.to_nat (clipz n lo) in let b := Z.to_nat (clipz n hi) in
  let m := (b - a)%nat in
  let! v' := if (length v =? m)%nat then Ok v
             else match v with [x] => Ok (repeat x m) | _ => Err ValueError end in
  Ok (firstn a l ++ v' ++ skipn (a + m) l).
Definition cd_H (N : nat) (fs D L wl : R) : list C :=
  map (fun w => Cexpi (- (/ 2 * (PI * fs * w) ^ 2 * (D * wl ^ 2 / (299792458 * 2 * PI)) * L))) (linspace (-1) 1 N).
(** core/equalisation/equalisation.py 646-666, one block of the overlap-add loop *)
Definition cd_block (E : list C) (H : list C) (N : nat) (sigEQ : list C) (i : nat) : result (list C) :=
  let n := Z.of_nat (N / 2) in let zp := Z.of_nat (N / 4) in let i := Z.of_nat i in
  let! sigB := slice_set zp (- zp) (pyslice (i * n) (i * n + n) E) (repeat C0 N) in
  let sigB := idft (cmul_list (dft sigB) H) in
  let old := pyslice (i * n) (i * n + n + 2 * zp) sigEQ in
  let! sum := if (length old =? length sigB)%nat then Ok (zipc Cadd old sigB)
              else match old with
                   | [x] => Ok (map (fun y => (x + y)%C) sigB)
                   | _ => match sigB with [y] => Ok (map (fun x => (x + y)%C) old) | _ => Err ValueError end
                   end in
  slice_set (i * n) (i * n + n + 2 * zp) sum sigEQ.
Fixpoint foldM {A B} (f : A -> B -> result A) (a : A) (l : list B) : result A :=
  match l with [] => Ok a | b :: l' => let! a' := f a b in foldM f a' l' end.
(** core/equalisation/equalisation.py 596-669, CDcomp of a flattened signal *)
Definition CDcomp (E : list C) (fs : R) (N : nat) (L D wl : R) : result (list C * list C) :=
  let samp := length E in
  let N := if (N =? 0)%nat then samp else N in
  let H := cd_H N fs D L wl in
  if (N =? samp)%nat then Ok (idft (ifftshift (cmul_list (fftshift (dft E)) H)), H)
  else
    let n := (N / 2)%nat in let zp := (N / 4)%nat in
    if (n =? 0)%nat then Err ZeroDivisionError else
    let B := (samp / n)%nat in
    let! sigEQ := foldM (cd_block E H N) (repeat C0 (n * (B + 1))) (seq 0 B) in
    Ok (pyslice (Z.of_nat zp) (- Z.of_nat zp) sigEQ, H).
