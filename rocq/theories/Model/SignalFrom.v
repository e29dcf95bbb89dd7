(** Signals made from given symbols or bits: signals.py 734-829,
    SignalQAMGrayCoded.from_symbol_array and from_bit_array (M given, a power of two;
    M=None, which counts the distinct symbols, is not modelled). *)
From Coq Require Import List NArith ZArith Bool Reals Arith.
From Verif Require Import Common.Py Common.Cplx Model.Gray Model.Constellation Model.Decision.
Import ListNotations.
Local Open Scope R_scope.

(** the _bits attribute: a one- or a two-dimensional array *)
Inductive bit_array := Bits1 (l : list bool) | Bits2 (rows : list (list bool)).

(** what the two class methods set: the samples, _bits and the mapping *)
Record signal := Signal { sig_samples : list (list C); sig_bits : bit_array; sig_map : mapping }.

(** signals.py 765, 768: (abs(np.unique(symbs))**2).mean() *)
Definition unique_power (symbs : list (list C)) : R :=
  Rmean (map (fun s => Cabs s ^ 2) (nodup Ceq_dec (concat symbs))).

(** signals.py 769: _generate_mapping(M, scale) with scale = sqrt(factor)/sqrt(power); written
    with the inverse of the scale, so that zero power (scale inf) gives points at zero *)
Definition symbols_mapping (nbits : nat) (power : R) : result mapping :=
  generate_mapping nbits
    (map (fun z => Cscal (sqrt power / sqrt (cal_scaling_factor_qam nbits)) (ZtoC z)) (cal_symbols_qam nbits))
    (gray_code_qam nbits).

(** signals.py 734-782, from_symbol_array(symbs, M).  The loop keeps only the index array of
    the last mode (lines 768-770).  An array with modes but without symbols has the power nan
    and is not modelled; one without modes leaves idx unbound. *)
Definition from_symbol_array (nbits : nat) (symbs : list (list C)) : result signal :=
  let! mp := symbols_mapping nbits (unique_power symbs) in
  let! dec := mapM (fun row => make_decision row (coded_symbols mp)) symbs in
  match rev dec with
  | [] => Err UnboundLocalError
  | last :: _ =>
      let! bits := demodulate_idx (encoding mp) (map snd last) in
      Ok {| sig_samples := map (map (fun t => fst (fst t))) dec; sig_bits := Bits1 bits; sig_map := mp |}
  end.

(** signals.py 785-829, from_bit_array(bits, M) for a two-dimensional array: the truncated
    bits are modulated (lines 811-815, 822), the given ones are kept (line 829). *)
Definition from_bit_array (nbits : nat) (bits : list (list bool)) : result signal :=
  let arr := map (fun row => if (0 <? length row mod nbits)%nat then firstn (length row / nbits * nbits) row else row) bits in
  let! mp := qam_mapping nbits in
  let! out := modulate mp arr in
  Ok {| sig_samples := out; sig_bits := Bits2 bits; sig_map := mp |}.
