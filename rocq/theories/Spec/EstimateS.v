(** Vocabulary for blind estimators. *)
From Coq Require Import List Reals.
From Verif Require Import Common.Cplx.
Import ListNotations.
Local Open Scope R_scope.

(** second and fourth moment of the modulus *)
Definition moment2 (l : list C) : R := Rmean (map Cnorm2 l).
Definition moment4 (l : list C) : R := Rmean (map (fun z => Cnorm2 z ^ 2) l).
(** fourth moment at unit power *)
Definition kurtosis (l : list C) : R := moment4 l / moment2 l ^ 2.
(** variance about the mean *)
Definition variance (l : list C) : R := Rmean (map (fun z => Cnorm2 (z - Cmean l)%C) l).

(** a QPSK signal [a * exp(i k pi/2)] with a carrier offset of [f] symbol rates at [os] samples per symbol *)
Definition qpsk_offset (a : C) (f : R) (os : nat) (row : list C) : Prop :=
  forall n z, nth_error row n = Some z ->
  exists k, z = (a * Cexpi (INR k * (PI / 2)) * Cexpi (2 * PI * f * INR n / INR os))%C.
(** [n] is the smallest power of two not below [m] *)
Definition next_pow2 (m n : nat) : Prop := exists h, n = (2 ^ h)%nat /\ (m <= n)%nat /\ forall g, (m <= 2 ^ g)%nat -> (h <= g)%nat.
