(** Gray codes and bit labelling of constellations.
    qampy/helpers: utils.py 195-200, theory.py 181-193, core/signal_quality.py 298-305,
    signals.py 678-731, 832-845. *)
From Coq Require Import List NArith Arith Bool.
From Verif Require Import Common.Py.
Import ListNotations.

(** qampy/core/utils.py 195-200: [value ^ (value >> 1)] *)
Definition bin2gray (v : N) : N := N.lxor v (N.shiftr v 1).

(** number of rows / column bits of the index grid, theory.py 185-191:
    even number of bits: 2^N x 2^N with N = Nbits/2,
    odd: 2^(N+1) x 2^N with N = (Nbits-1)/2.  Both are N = Nbits//2 columns bits. *)
Definition col_bits (nbits : nat) : nat :=
  if Nat.even nbits then nbits / 2 else (nbits - 1) / 2.
Definition row_bits (nbits : nat) : nat :=
  if Nat.even nbits then nbits / 2 else (nbits - 1) / 2 + 1.

(** qampy/theory.py 181-193, gray_code_qam(M) for M = 2^nbits *)
Definition gray_code_qam (nbits : nat) : list N :=
  let n := col_bits nbits in
  grid (2 ^ row_bits nbits) (2 ^ n)
       (fun i j => N.lor (N.shiftl (bin2gray (N.of_nat i)) (N.of_nat n)) (bin2gray (N.of_nat j))).

(** signals.py 937: bin2gray(np.arange(M)), the code of PSK *)
Definition gray_code_psk (nbits : nat) : list N :=
  map (fun i => bin2gray (N.of_nat i)) (seq 0 (2 ^ nbits)).

(** signals.py 838-839: u = zeros_like(code); u[code] = arange(u.size)
    (assignments executed in index order) *)
Definition inverse_code (g : list N) : result (list nat) :=
  fold_left (fun acc p => let! u := acc in setn (N.to_nat (snd p)) (fst p) u)
            (combine (seq 0 (length g)) g) (Ok (repeat 0 (length g))).

(** signals.py 840: coded_symbols = symbols[u] *)
Definition coded_symbols_of {A} (symbols : list A) (g : list N) : result (list A) :=
  let! u := inverse_code g in fancy_get u symbols.

(** signals.py 843: ((i & (1 << np.arange(Nbits))) > 0)[::-1] *)
Definition encode_row (nbits i : nat) : list bool :=
  rev (map (fun j => negb (N.eqb (N.land (N.of_nat i) (N.shiftl 1 (N.of_nat j))) 0)) (seq 0 nbits)).

(** signals.py 841-843: encoding table, one row of Nbits bools per label *)
Definition encoding_table (nbits m : nat) : list (list bool) := map (encode_row nbits) (seq 0 m).

(** signals.py 678-702, _demodulate on one row of symbol indices *)
Definition demodulate_idx (encoding : list (list bool)) (idx : list nat) : result (list bool) :=
  let! rows := fancy_get idx encoding in Ok (concat rows).

(** column [b] of a 2-D boolean array given by rows *)
Definition bool_column (b : nat) (rows : list (list bool)) : result (list bool) :=
  mapM (fun r => getn r b) rows.

(** core/signal_quality.py 298-305, generate_bitmapping_mtx(coded_symbs, coded_bits, M):
    for every bit the pair (bit_map[bit,:,0], bit_map[bit,:,1]).  Assigning a selection of
    another length than M/2 to bit_map[bit,:,.] is a ValueError. *)
Definition bitmapping_row {A} (coded : list A) (m : nat) (col : list bool) : result (list A * list A) :=
  let! z := mask_get (map negb col) coded in
  let! o := mask_get col coded in
  if (length z =? m / 2) && (length o =? m / 2) then Ok (z, o) else Err ValueError.
Definition generate_bitmapping_mtx {A} (coded : list A) (coded_bits : list bool) (m nbits : nat)
  : result (list (list A * list A)) :=
  let! out_mtx := reshape nbits coded_bits in
  if negb (length out_mtx =? m) then Err ValueError else
  mapM (fun b => let! col := bool_column b out_mtx in bitmapping_row coded m col) (seq 0 nbits).

(** signals.py 720-730: one block of bits dotted with 2**arange(bitspsym-1,-1,-1) *)
Definition block_index (nbits : nat) (block : list bool) : nat :=
  fold_right Nat.add 0
    (map (fun p => if fst p : bool then snd p else 0)
         (combine block (map (fun j => 2 ^ j) (rev (seq 0 nbits))))).

(** signals.py 705-731, _modulate on one mode; bitspsym = int(log2(len(coded_symbols))) *)
Definition modulate_row {A} (coded : list A) (data : list bool) : result (list A) :=
  let bitspsym := Nat.log2 (length coded) in
  if bitspsym =? 0 then Err ZeroDivisionError else
  let n := length data - length data mod bitspsym in
  let! datab := reshape bitspsym (firstn n data) in
  let idx := map (block_index bitspsym) datab in
  fancy_get idx coded.
Definition modulate_arr {A} (coded : list A) (data : list (list bool)) : result (list (list A)) :=
  mapM (modulate_row coded) data.
