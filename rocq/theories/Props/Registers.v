(** Properties C119-C120: the shift-register generators of core/utils.py for any polynomial. *)
From Coq Require Import List NArith Arith Bool Lia.
From Verif Require Import Common.Py Model.Lfsr Spec.BitSeq Spec.LfsrS Proofs.LfsrP Proofs.LfsrQ.
Import ListNotations.

(** C119.  Every state is the previous one times x modulo the polynomial given by the mask, and the
    output bit is the quotient: 2*prev = x*mask + st over GF(2), st of lower degree. *)
Theorem C119_remainder : forall (mask s : N) (L : nat), (2 <= mask)%N -> (s < 2 ^ N.log2 mask)%N ->
  exists out, lfsr_int s mask L = Ok out /\ length out = L /\
   (forall i x st prev, nth_error (s :: map snd out) i = Some prev -> nth_error out i = Some (x, st) ->
      (x = 0 \/ x = 1)%N /\ (st < 2 ^ N.log2 mask)%N /\ N.lxor (2 * prev) st = (x * mask)%N).
Proof. exact lfsr_int_register. Qed.
Print Assumptions C119_remainder.
(** the output bits obey the recurrence of the polynomial *)
Theorem C119_recurrence : forall (mask s : N) (L : nat) out, (2 <= mask)%N -> (s < 2 ^ N.log2 mask)%N ->
  lfsr_int s mask L = Ok out ->
  let n := N.to_nat (N.log2 mask) in
  let bit := fun i => negb (nth i (map fst out) 0 =? 0)%N in
  forall i, i + n < L -> bit (i + n) = gf2_sum (fun k => N.testbit mask (N.of_nat k) && bit (i + k)) n.
Proof. exact lfsr_int_recurrence. Qed.
Print Assumptions C119_recurrence.
(** with the lowest bit of the mask set different seeds never meet; zero stays zero *)
Theorem C119_reversible : forall (mask a b : N) (L i : nat) outa outb x y st, (2 <= mask)%N -> N.odd mask = true ->
  (a < 2 ^ N.log2 mask)%N -> (b < 2 ^ N.log2 mask)%N ->
  lfsr_int a mask L = Ok outa -> lfsr_int b mask L = Ok outb ->
  nth_error outa i = Some (x, st) -> nth_error outb i = Some (y, st) -> a = b.
Proof. exact lfsr_int_reversible. Qed.
Print Assumptions C119_reversible.
Theorem C119_zero : forall (mask : N) (L : nat) out, (2 <= mask)%N -> lfsr_int 0 mask L = Ok out -> out = repeat (0%N, 0%N) L.
Proof. exact lfsr_int_zero. Qed.
Print Assumptions C119_zero.
(** with the polynomials of order 7, 15, 23 and 31 the states repeat exactly every 2^order-1 turns *)
Theorem C119_maximal_period : forall order L s out i j xi xj si sj, In order prbs_orders -> (0 < s < 2 ^ N.of_nat order)%N ->
  lfsr_int s (prbs_mask order) L = Ok out -> i <= j ->
  nth_error out i = Some (xi, si) -> nth_error out j = Some (xj, sj) ->
  (si = sj <-> Nat.divide (2 ^ order - 1) (j - i)).
Proof. exact lfsr_int_period. Qed.
Print Assumptions C119_maximal_period.

Example C119_case : lfsr_int 9 0x13 6 = Ok [(1, 1); (0, 2); (0, 4); (0, 8); (1, 3); (0, 6)]%N.
Proof. reflexivity. Qed.
Example C119_period_case : exists out, lfsr_int 5 (prbs_mask 7) 140 = Ok out /\
  nth_error (map snd out) 130 = nth_error (map snd out) 3 /\ nth_error (map snd out) 4 <> nth_error (map snd out) 3.
Proof. eexists. split; [vm_compute; reflexivity|]. split; [reflexivity|]. vm_compute. discriminate. Qed.

(** C120.  With the seed bits in front (least significant first) every output bit is the sum over GF(2)
    of the bits [t] places before it, t running through the taps; the state is the last nbits bits. *)
Theorem C120_recurrence : forall order taps (s : N) L, 1 <= order -> (s < 2 ^ N.of_nat order)%N ->
  Forall (fun t => (1 <= t <= N.of_nat order)%N) taps ->
  exists out, lfsr_ext_gen s taps (N.of_nat order) L = Ok out /\ length out = L /\
    let l := seeded order s (map (fun p => negb (fst p =? 0)%N) out) in
    forall i x st, nth_error out i = Some (x, st) ->
      (x = 0 \/ x = 1)%N /\ (st < 2 ^ N.of_nat order)%N /\
      nth (order + i) l false = gf2_list (map (fun t => nth (order + i - N.to_nat t) l false) taps) /\
      (forall j, j < order -> N.testbit st (N.of_nat j) = nth (i + 1 + j) l false).
Proof. exact lfsr_ext_register. Qed.
Print Assumptions C120_recurrence.
(** with nbits among the (distinct) taps different seeds never meet *)
Theorem C120_reversible : forall order taps (a b : N) L i outa outb x y st, 1 <= order ->
  Forall (fun t => (1 <= t <= N.of_nat order)%N) taps -> NoDup taps -> In (N.of_nat order) taps ->
  (a < 2 ^ N.of_nat order)%N -> (b < 2 ^ N.of_nat order)%N ->
  lfsr_ext_gen a taps (N.of_nat order) L = Ok outa -> lfsr_ext_gen b taps (N.of_nat order) L = Ok outb ->
  nth_error outa i = Some (x, st) -> nth_error outb i = Some (y, st) -> a = b.
Proof. exact lfsr_ext_reversible. Qed.
Print Assumptions C120_reversible.
(** a tap beyond the register raises ValueError *)
Theorem C120_long_tap : forall s taps n L, Exists (fun t => (n < t)%N) taps -> lfsr_ext_gen s taps n (S L) = Err ValueError.
Proof. exact lfsr_ext_long_tap. Qed.
Print Assumptions C120_long_tap.

Example C120_case : lfsr_ext_gen 9 [4; 3; 1]%N 4 5 = Ok [(0, 4); (0, 2); (1, 9); (0, 4); (0, 2)]%N.
Proof. reflexivity. Qed.
