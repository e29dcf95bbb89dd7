(** The shift-register generators of core/utils.py 56-113 (the public Python generators, independent
    of the compiled prbs_int/prbs_ext of core/pythran_dsp.py).  A generator is represented by the
    first [n] pairs it yields.  Seeds, masks and taps are non-negative integers. *)
From Coq Require Import List NArith Arith Bool.
From Verif Require Import Common.Py.
Import ListNotations.
Local Open Scope N_scope.

(** utils.py 76-85: one turn of the while loop *)
Definition gal_turn (mask nbits state : N) : N * N :=
  let state := N.shiftl state 1 in
  let xor := N.shiftr state nbits in
  let state := if negb (xor =? 0) then N.lxor state mask else state in
  (xor, state).
Fixpoint gal_run (mask nbits state : N) (n : nat) : list (N * N) :=
  match n with
  | O => []
  | S n' => let p := gal_turn mask nbits state in p :: gal_run mask nbits (snd p) n'
  end.
(** mask = 0 has bit_length 0, so the right shift by -1 raises ValueError *)
Definition lfsr_int (seed mask : N) (n : nat) : result (list (N * N)) :=
  match n with
  | O => Ok []
  | _ => if mask =? 0 then Err ValueError else Ok (gal_run mask (N.size mask - 1) seed n)
  end.

(** utils.py 105-113: one turn; a shift by a negative amount raises ValueError *)
Fixpoint fib_xor (nbits : N) (taps : list N) (sr xor : N) : result N :=
  match taps with
  | [] => Ok xor
  | t :: taps' =>
      if nbits <? t then Err ValueError
      else fib_xor nbits taps' sr
             (if negb (N.land sr (N.shiftl 1 (nbits - t)) =? 0) then N.lxor xor 1 else xor)
  end.
Definition fib_turn (nbits : N) (taps : list N) (sr : N) : result (N * N) :=
  let! xor := fib_xor nbits taps sr 0 in
  if nbits =? 0 then Err ValueError
  else Ok (xor, N.shiftl xor (nbits - 1) + N.shiftr sr 1).
Fixpoint lfsr_ext_gen (sr : N) (taps : list N) (nbits : N) (n : nat) : result (list (N * N)) :=
  match n with
  | O => Ok []
  | S n' => let! p := fib_turn nbits taps sr in
            let! ps := lfsr_ext_gen (snd p) taps nbits n' in Ok (p :: ps)
  end.
