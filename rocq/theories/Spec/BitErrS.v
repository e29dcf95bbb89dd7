(** Bit errors between two sequences, and evenly spaced values. *)
From Coq Require Import Reals List Arith Bool ZArith.
Import ListNotations.

(** the positions below n at which two sequences differ *)
Definition bit_errors (n : nat) (a b : list bool) : nat :=
  length (filter (fun i => xorb (nth i a false) (nth i b false)) (seq 0 n)).
(** n! as a relation *)
Inductive is_factorial : nat -> Z -> Prop :=
| fact_zero : is_factorial 0 1%Z
| fact_next n f : is_factorial n f -> is_factorial (S n) (Z.of_nat (S n) * f)%Z.
