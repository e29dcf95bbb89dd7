(** PRBS generators: core/prbs.py, core/pythran_dsp.py 156-178, core/utils.py 56-125,
    and the bit classes of signals.py 53-142. *)
From Coq Require Import List NArith Arith Bool.
From Verif Require Import Common.Py.
Import ListNotations.
Local Open Scope N_scope.

(** ** external XOR (Fibonacci) register *)
(** pythran_dsp.py 161-164 / utils.py 107-111: xor over the taps of bit nbits-t of the register *)
Definition tap_xor (nbits : N) (taps : list N) (sr : N) : N :=
  fold_left (fun x t => if negb (N.land sr (N.shiftl 1 (nbits - t)) =? 0) then N.lxor x 1 else x) taps 0.
(** pythran_dsp.py 165 / utils.py 112: sr = (xor << nbits-1) + (sr >> 1) *)
Definition lfsr_step (nbits : N) (taps : list N) (sr : N) : N :=
  N.shiftl (tap_xor nbits taps sr) (nbits - 1) + N.shiftr sr 1.

(** pythran_dsp.py 156-166; the outputs are the xor values *)
Fixpoint prbs_ext (sr : N) (taps : list N) (nbits : N) (n : nat) : list N :=
  match n with
  | O => []
  | S n' => tap_xor nbits taps sr :: prbs_ext (lfsr_step nbits taps sr) taps nbits n'
  end.

(** utils.py 87-113, generator version: n-th yielded (xor, state) *)
Fixpoint lfsr_ext (sr : N) (taps : list N) (nbits : N) (n : nat) : N * N :=
  let x := tap_xor nbits taps sr in
  let sr' := lfsr_step nbits taps sr in
  match n with O => (x, sr') | S n' => lfsr_ext sr' taps nbits n' end.

(** core/prbs.py 48, 50: supported orders and taps *)
Definition tapdict (order : N) : option (list N) :=
  if order =? 7 then Some [7; 6] else if order =? 15 then Some [15; 14]
  else if order =? 23 then Some [23; 18] else if order =? 31 then Some [31; 28] else None.

(** a seed argument: None, an integer or a sequence of bools *)
Inductive seed_arg := SeedNone | SeedInt (s : N) | SeedBits (b : list bool).

(** utils.py 115-125: y += j << i, at most 63 entries *)
Fixpoint bool2bin_from (i : N) (x : list bool) : N :=
  match x with [] => 0 | b :: x' => N.shiftl (N.b2n b) i + bool2bin_from (i + 1) x' end.
Definition bool2bin (x : list bool) : result N :=
  if (length x <? 64)%nat then Ok (bool2bin_from 0 x) else Err AssertionError.

(** core/prbs.py 51-57: seed None = all ones, integers raise TypeError in bool2bin and pass *)
Definition resolve_seed (order : N) (seed : seed_arg) : result N :=
  match seed with
  | SeedNone => bool2bin (repeat true (N.to_nat order))
  | SeedBits b => bool2bin b
  | SeedInt s => Ok s
  end.

(** core/prbs.py 28-59 *)
Definition make_prbs_extXOR (order : N) (nbits : nat) (seed : seed_arg) : result (list bool) :=
  match tapdict order with
  | None => Err AssertionError
  | Some taps =>
      let! s := resolve_seed order seed in
      Ok (map (fun x => negb (x =? 0)) (prbs_ext s taps order nbits))
  end.

(** ** internal XOR (Galois) register *)
(** pythran_dsp.py 169-178; requires four arguments *)
Definition int_step (mask nbits state : N) : N * N :=
  let st := N.shiftl state 1 in
  let x := N.shiftr st nbits in
  (x, if negb (x =? 0) then N.lxor st mask else st).
Fixpoint prbs_int (state mask nbits : N) (n : nat) : list N :=
  match n with
  | O => []
  | S n' => let '(x, st) := int_step mask nbits state in x :: prbs_int st mask nbits n'
  end.
(** utils.py 56-85 computes nbits from the mask: mask.bit_length() - 1 *)
Definition lfsr_int_nbits (mask : N) : N := N.size mask - 1.

(** core/prbs.py 84-89 *)
Definition int_mask (order : N) : option N :=
  if order =? 7 then Some (2 ^ 7 + 2 ^ 6 + 1) else if order =? 15 then Some (2 ^ 15 + 2 ^ 14 + 1)
  else if order =? 23 then Some (2 ^ 23 + 2 ^ 18 + 1) else if order =? 31 then Some (2 ^ 31 + 2 ^ 28 + 1)
  else None.

(** core/prbs.py 62-98.  Line 97 calls prbs_int(seed, mask, nbits) with three arguments; the
    function takes (seed, mask, nbits, N), so Python raises TypeError. *)
Definition call_prbs_int (args : list N) : result (list N) :=
  match args with
  | [seed; mask; nbits; n] => Ok (prbs_int seed mask nbits (N.to_nat n))
  | _ => Err TypeError
  end.
Definition make_prbs_intXOR (order : N) (nbits : nat) (seed : seed_arg) : result (list bool) :=
  match int_mask order with
  | None => Err AssertionError
  | Some mask =>
      let! s := resolve_seed order seed in
      let! out := call_prbs_int [s; mask; N.of_nat nbits] in
      Ok (map (fun x => negb (x =? 0)) out)
  end.

(** ** PRBSBits, signals.py 114-137 *)
(** Random draws: [draws i] is what np.random.choice([15,23]) and np.random.randint(0, 2**o)
    return at the i-th use. *)
Definition draws_ok (draws : nat -> N * N) : Prop :=
  forall i, (fst (draws i) = 15 \/ fst (draws i) = 23) /\ snd (draws i) < 2 ^ fst (draws i).

(** One pass through the loop body, lines 120-130.  [order], [seed] are the names looked up;
    [on], [sn] the lists being built.  From the second pass on [order] and [seed] *are* the lists
    being built (lines 129-130 rebind the names), so appends are visible to the lookups. *)
Definition prbs_pass (draws : nat -> N * N) (i : nat) (aliased : bool)
  (order : list N) (seed : list seed_arg) (on : list N) (sn : list seed_arg) (nd : nat)
  : list N * list seed_arg * nat :=
  let look_o := if aliased then on else order in
  match nth_error look_o i with
  | None => (on ++ [fst (draws nd)], sn ++ [SeedInt (snd (draws nd))], S nd)
  | Some o =>
      let on' := on ++ [o] in
      let look_s := if aliased then sn else seed in
      match nth_error look_s i with
      | Some s => (on', sn ++ [s], nd)
      | None => (on' ++ [fst (draws nd)], sn ++ [SeedInt (snd (draws nd))], S nd)
      end
  end.
Fixpoint prbs_passes (draws : nat -> N * N) (n i : nat) (order : list N) (seed : list seed_arg)
  (on : list N) (sn : list seed_arg) (nd : nat) : list N * list seed_arg :=
  match n with
  | O => (on, sn)
  | S n' => let '(on', sn', nd') := prbs_pass draws i (negb (i =? 0)%nat) order seed on sn nd in
            prbs_passes draws n' (S i) order seed on' sn' nd'
  end.
Definition prbs_orders_seeds (draws : nat -> N * N) (nmodes : nat) (order : list N) (seed : list seed_arg)
  : list N * list seed_arg :=
  if (length order <? nmodes)%nat then
    match nmodes with O => (order, seed) | _ => prbs_passes draws nmodes 0 order seed [] [] 0 end
  else (order, seed).
Definition PRBSBits (draws : nat -> N * N) (n nmodes : nat) (seed : list seed_arg) (order : list N)
  : result (list (list bool)) :=
  let '(order', seed') := prbs_orders_seeds draws nmodes order seed in
  mapM (fun i => let! o := getn order' i in
                 let! s := getn seed' i in
                 make_prbs_extXOR o n s) (seq 0 nmodes).
