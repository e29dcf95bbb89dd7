(** Constellations: qampy/theory.py 111-178.
    QAM points are integer pairs (all values of mgrid are exact small integers), PSK points
    and the normalised alphabets are complex numbers. [nbits] is log2(M), M a power of two. *)
From Coq Require Import List NArith ZArith Bool Reals Arith.
From Verif Require Import Common.Py Common.Cplx Model.Gray.
Import ListNotations.

(** theory.py 151-158, cal_symbols_square_qam(M), M = 4^(nbits/2):
    mgrid[-(n-1):(n-1):n*1j, ...] with n = sqrt(M), real part slow, imaginary part fast.
    linspace from -(n-1) to n-1 with n points has step 2. *)
Definition pam_level (n : nat) (i : nat) : Z := (2 * Z.of_nat i - (Z.of_nat n - 1))%Z.
Definition square_qam (h : nat) : list (Z * Z) :=
  let n := (2 ^ h)%nat in grid n n (fun i j => (pam_level n i, pam_level n j)).

(** theory.py 161-178, cal_symbols_cross_qam(M), nbits = 2N+1, s = 2^(N-1).
    All comparisons and values are multiplied out with [s2] = 2*s = 2^N, so that they stay
    exact integers also for N = 0:  3*s < x  <->  3*s2 < 2*x ;  4*s = 2*s2. *)
Definition cross_move (s2 : Z) (z : Z * Z) : Z * Z :=
  let '(re, im) := z in
  if (3 * s2 <? 2 * Z.abs re)%Z && (s2 <? 2 * Z.abs im)%Z then
    (Z.sgn re * (Z.abs re - s2), Z.sgn im * (2 * s2 - Z.abs im))%Z
  else if (3 * s2 <? 2 * Z.abs re)%Z && (2 * Z.abs im <=? s2)%Z then
    (Z.sgn re * (2 * s2 - Z.abs re), Z.sgn im * (Z.abs im + s2))%Z
  else (re, im).
Definition cross_qam (n : nat) : list (Z * Z) :=
  grid (2 ^ (n + 1)) (2 ^ n)
       (fun i j => cross_move (2 ^ Z.of_nat n) (pam_level (2 ^ (n + 1)) i, pam_level (2 ^ n) j)).

(** theory.py 111-118 *)
Definition cal_symbols_qam (nbits : nat) : list (Z * Z) :=
  if Nat.odd nbits then cross_qam ((nbits - 1) / 2) else square_qam (nbits / 2).

Local Open Scope R_scope.
Definition ZtoC (z : Z * Z) : C := (IZR (fst z), IZR (snd z)).

(** theory.py 139-149 *)
Definition cal_scaling_factor_qam (nbits : nat) : R :=
  if Nat.even nbits then 2 / 3 * (INR (2 ^ nbits) - 1)
  else Rmean (map (fun z => Cabs (ZtoC z) ^ 2) (cal_symbols_qam nbits)).

(** theory.py 120-137, phases of cal_symbols_psk(M) *)
Definition psk_phase (m i : nat) : R :=
  if (m =? 4)%nat then INR i * 2 * PI / INR m + PI / INR m
  else 2 * INR i * PI / INR m.
Definition cal_symbols_psk (nbits : nat) : list C :=
  map (fun i => Cexpi (psk_phase (2 ^ nbits) i)) (seq 0 (2 ^ nbits)).

(** What a Gray-coded signal class keeps of its mapping (the attributes _coded_symbols, _code,
    _encoding, _bitmap_mtx). *)
Record mapping := Mapping {
  coded_symbols : list C;
  graycode : list N;
  encoding : list (list bool);
  bitmap_mtx : list (list C * list C) }.

(** signals.py 832-845 and 934-946 after the symbols have been computed *)
Definition generate_mapping (nbits : nat) (symbols : list C) (code : list N) : result mapping :=
  let! coded := coded_symbols_of symbols code in
  let enc := encoding_table nbits (length code) in
  let! bits := demodulate_idx enc (seq 0 (length code)) in
  let! bm := generate_bitmapping_mtx coded bits (2 ^ nbits) nbits in
  Ok {| coded_symbols := coded; graycode := code; encoding := enc; bitmap_mtx := bm |}.

(** signals.py 832-845, SignalQAMGrayCoded._generate_mapping(M, scale) *)
Definition qam_mapping_scaled (nbits : nat) (scale : R) : result mapping :=
  generate_mapping nbits (map (fun z => Cscal (/ scale) (ZtoC z)) (cal_symbols_qam nbits))
                   (gray_code_qam nbits).
(** with the scale used by the constructor, signals.py 660-661 *)
Definition qam_mapping (nbits : nat) : result mapping :=
  qam_mapping_scaled nbits (sqrt (cal_scaling_factor_qam nbits)).

(** signals.py 934-946, SignalPSKGrayCoded._generate_mapping(M, scale) (scale is not used) *)
Definition psk_mapping (nbits : nat) : result mapping :=
  generate_mapping nbits (cal_symbols_psk nbits) (gray_code_psk nbits).
