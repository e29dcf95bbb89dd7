(** fractions.Fraction.limit_denominator of the Python standard library, used by
    core/resample.py 32-34 and signals.py 1264-1270.  Floats are rational numbers. *)
From Coq Require Import ZArith QArith Qabs List.
From Verif Require Import Common.Py.
Local Open Scope Z_scope.

(** the continued fraction loop on n/d; [None] when the fuel runs out, which it never does with the
    fuel below *)
Fixpoint ld_loop (fuel : nat) (mx n d p0 q0 p1 q1 : Z) : option (Z * Z * Z * Z) :=
  match fuel with
  | O => None
  | S fuel =>
      let a := n / d in
      let q2 := q0 + a * q1 in
      if mx <? q2 then Some (p0, q0, p1, q1)
      else ld_loop fuel mx d (n - a * d) p1 q1 (p0 + a * p1) q2
  end.
Definition limit_denominator (mx : positive) (x : Q) : option Q :=
  let x := Qred x in
  if (Qden x <=? mx)%positive then Some x else
  match ld_loop (2 * Pos.size_nat (Qden x) + 2) (Zpos mx) (Qnum x) (QDen x) 0 1 1 0 with
  | None => None
  | Some (p0, q0, p1, q1) =>
      let k := (Zpos mx - q0) / q1 in
      let bound1 := Qred (Qmake (p0 + k * p1) (Z.to_pos (q0 + k * q1))) in
      let bound2 := Qred (Qmake p1 (Z.to_pos q1)) in
      Some (if Qle_bool (Qabs (bound2 - x)) (Qabs (bound1 - x)) then bound2 else bound1)
  end.
Definition fraction_of (x : Q) : result Q :=
  match limit_denominator 1000000 x with Some y => Ok y | None => Err RecursionError end.
