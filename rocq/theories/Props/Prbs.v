(** Properties C08-C11: pseudo random bit sequences. *)
From Coq Require Import List NArith Arith Bool Lia.
From Verif Require Import Common.Py Model.Prbs Spec.BitSeq Proofs.PrbsP Proofs.PrbsQ.
Import ListNotations.

(** C08: length, recurrence from the seed bits on, and no all-zero register (the register after
    i steps is the window of [order] bits starting at i of seed bits followed by outputs). *)
Theorem C08_recurrence : forall (order L : nat) (s : N), In order prbs_orders -> (s < 2 ^ N.of_nat order)%N ->
  exists out, make_prbs_extXOR (N.of_nat order) L (SeedInt s) = Ok out /\ length out = L /\
    (forall i, order <= i < order + L ->
       recurrence_at (seeded order s out) (fst (prbs_taps order)) (snd (prbs_taps order)) i) /\
    (s <> 0%N -> forall i, i + order <= order + L -> window (seeded order s out) i order <> repeat false order).
Proof. exact c08. Qed.
Print Assumptions C08_recurrence.

(** the default seed is all ones, a list of bools is read least significant bit first *)
Theorem C08_default_seed : forall (order L : nat), In order prbs_orders ->
  make_prbs_extXOR (N.of_nat order) L SeedNone
  = make_prbs_extXOR (N.of_nat order) L (SeedInt (2 ^ N.of_nat order - 1)).
Proof. exact make_none. Qed.
Print Assumptions C08_default_seed.

Example C08_case : make_prbs_extXOR 7 10 (SeedInt 5)
  = Ok [true; true; true; false; false; false; true; false; false; true].
Proof. reflexivity. Qed.

(** C09 *)
Theorem C09_maximal_period : forall (order L : nat) (s : N) (out : list bool),
  In order prbs_orders -> (0 < s < 2 ^ N.of_nat order)%N ->
  make_prbs_extXOR (N.of_nat order) L (SeedInt s) = Ok out ->
  let P := 2 ^ order - 1 in
  (forall i, i + P < L -> nth_error out (i + P) = nth_error out i) /\
  (forall q i, 0 < q -> i + q + order <= L -> window out (i + q) order = window out i order -> Nat.divide P q) /\
  (P + order <= L -> forall w, length w = order -> w <> repeat false order ->
     exists i, i < P /\ window out i order = w /\ forall j, j < P -> window out j order = w -> j = i).
Proof. exact c09. Qed.
Print Assumptions C09_maximal_period.

Theorem C09_zero_seed : forall order L : nat, In order prbs_orders ->
  make_prbs_extXOR (N.of_nat order) L (SeedInt 0) = Ok (repeat false L).
Proof. exact c09_zero. Qed.
Print Assumptions C09_zero_seed.

Example C09_case : exists out, make_prbs_extXOR 7 260 (SeedInt 5) = Ok out /\
  nth_error out 150 = nth_error out 23 /\ window out 3 7 = window out 130 7 /\
  In 7 prbs_orders /\ (0 < 5 < 2 ^ N.of_nat 7)%N.
Proof. eexists. split; [vm_compute; reflexivity|]. repeat split; try reflexivity. now left. Qed.

(** C10.  Full statement: row i of PRBSBits is the PRBS of the i-th given order and seed, for lists
    of any length.  It is false (see the refutations); it holds when both lists reach nmodes, and
    for the first mode always. *)
Theorem C10_given_rows_partial : forall draws (L nmodes : nat) seed order,
  nmodes <= length order -> nmodes <= length seed ->
  (forall i o s, i < nmodes -> nth_error order i = Some o -> nth_error seed i = Some s ->
     exists row, make_prbs_extXOR o L s = Ok row) ->
  exists rows, PRBSBits draws L nmodes seed order = Ok rows /\ length rows = nmodes /\
    forall i o s, i < nmodes -> nth_error order i = Some o -> nth_error seed i = Some s ->
      exists row, nth_error rows i = Some row /\ make_prbs_extXOR o L s = Ok row.
Proof. exact c10_given. Qed.
Print Assumptions C10_given_rows_partial.

Theorem C10_first_row_partial : forall draws (L nmodes : nat) seed order o s row rows, 1 <= nmodes ->
  nth_error order 0 = Some o -> nth_error seed 0 = Some s ->
  PRBSBits draws L nmodes seed order = Ok rows -> nth_error rows 0 = Some row ->
  make_prbs_extXOR o L s = Ok row.
Proof. exact c10_first. Qed.
Print Assumptions C10_first_row_partial.

Example C10_case : exists rows, PRBSBits (fun _ => (15, 1)%N) 3 2 [SeedInt 3; SeedNone] [7; 15]%N = Ok rows /\
  length rows = 2.
Proof. eexists; split; [vm_compute; reflexivity|reflexivity]. Qed.

(** a given order is replaced by a random one *)
Theorem C10_given_order_ignored_refuted : exists draws row, draws_ok draws /\
  make_prbs_extXOR 7 8 (SeedInt 2) = Ok row /\
  exists rows, PRBSBits draws 8 3 [SeedInt 1; SeedInt 2] [7%N; 7%N] = Ok rows /\ nth_error rows 1 <> Some row.
Proof. exact c10_ignored. Qed.
Print Assumptions C10_given_order_ignored_refuted.

(** the random seed may be zero and the sequence constant *)
Theorem C10_constant_refuted : exists draws, draws_ok draws /\
  forall L, PRBSBits draws L 1 [] [] = Ok [repeat false L].
Proof. exact c10_constant. Qed.
Print Assumptions C10_constant_refuted.

(** three orders with the default seed list raise IndexError, whatever is drawn *)
Theorem C10_default_seeds_refuted : forall draws L,
  PRBSBits draws L 3 [SeedNone; SeedNone] [15; 23; 15]%N = Err IndexError.
Proof. exact c10_index. Qed.
Print Assumptions C10_default_seeds_refuted.

(** C11: the wrapper raises for every argument *)
Theorem C11_always_raises_refuted : forall order L seed, exists e,
  make_prbs_intXOR order L seed = Err e /\
  (In order [7; 15; 23; 31]%N -> (forall b, seed = SeedBits b -> length b < 64) -> e = TypeError).
Proof. exact c11. Qed.
Print Assumptions C11_always_raises_refuted.

(** what the register underneath does when it is given all four arguments *)
Theorem C11_prbs_int_partial : forall (order L : nat) (s mask : N) out,
  In order prbs_orders -> (s < 2 ^ N.of_nat order)%N -> int_mask (N.of_nat order) = Some mask ->
  call_prbs_int [s; mask; N.of_nat order; N.of_nat L] = Ok out ->
  length out = L /\ Forall (fun x => x = 0%N \/ x = 1%N) out /\
  forall i, order <= i < L -> exists a b,
    nth_error out (i - order) = Some a /\ nth_error out (i - order + snd (prbs_taps order)) = Some b /\
    nth_error out i = Some (N.lxor a b).
Proof. exact c11_int. Qed.
Print Assumptions C11_prbs_int_partial.

Example C11_case : call_prbs_int [1; 193; 7; 12]%N = Ok [0; 0; 0; 0; 0; 0; 1; 1; 1; 1; 1; 1]%N.
Proof. reflexivity. Qed.
