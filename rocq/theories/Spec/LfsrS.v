(** Vocabulary for shift registers over GF(2). *)
From Coq Require Import List NArith Arith Bool.
Import ListNotations.

(** the sum over GF(2) of f 0, ..., f (n-1) *)
Fixpoint gf2_sum (f : nat -> bool) (n : nat) : bool :=
  match n with O => false | S n' => xorb (gf2_sum f n') (f n') end.
(** the sum over GF(2) of a list of bits *)
Definition gf2_list (l : list bool) : bool := fold_right xorb false l.

(** the feedback polynomials of the sequences of order 7, 15, 23, 31 as bit masks *)
Definition prbs_mask (order : nat) : N :=
  match order with
  | 7 => 0xC1%N | 15 => 0xC001%N | 23 => 0x840001%N | _ => 0x90000001%N
  end.
