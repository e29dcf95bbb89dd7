(** Vocabulary for the theorems about bit error rate testers. *)
From Coq Require Import List Arith Bool Reals ZArith.
From Verif Require Import Common.Cplx.
Import ListNotations.

(** number of i < n with f i *)
Definition occurrences (f : nat -> bool) (n : nat) : nat := length (filter f (seq 0 n)).
(** the QPSK point of unit power for a bit in each quadrature *)
Definition quadrature (b : bool) : R := if b then (/ sqrt 2)%R else (- / sqrt 2)%R.
Definition qpsk_point (i q : bool) : C := (quadrature i, quadrature q).
(** bit k of a pattern delayed circularly by s *)
Definition delayed (out : list bool) (s : Z) (k : nat) : bool :=
  nth (Z.to_nat ((Z.of_nat k - s) mod Z.of_nat (length out))) out false.
