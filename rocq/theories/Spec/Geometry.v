(** Vocabulary for statements about constellations (independent of the model). *)
From Coq Require Import List ZArith Reals.
From Verif Require Import Common.Cplx.
Import ListNotations.

(** points of the 2^h x 2^h grid of odd integers *)
Definition square_point (h : nat) (z : Z * Z) : Prop :=
  Z.Odd (fst z) /\ Z.Odd (snd z) /\
  (Z.abs (fst z) < 2 ^ Z.of_nat h)%Z /\ (Z.abs (snd z) < 2 ^ Z.of_nat h)%Z.

(** points of the 2^r x 2^c rectangle of odd integers (a single column is at 0) *)
Definition rect_point (r c : nat) (z : Z * Z) : Prop :=
  Z.Odd (fst z) /\ (if c then snd z = 0%Z else Z.Odd (snd z)) /\
  (Z.abs (fst z) < 2 ^ Z.of_nat r)%Z /\ (Z.abs (snd z) < 2 ^ Z.of_nat c)%Z.

(** cross with 2^(2n+1) points: odd integers below 3*2^(n-1), corner squares (both
    coordinates above 2^n) removed; the first two inequalities are doubled *)
Definition cross_point (n : nat) (z : Z * Z) : Prop :=
  Z.Odd (fst z) /\ Z.Odd (snd z) /\
  (2 * Z.abs (fst z) < 3 * 2 ^ Z.of_nat n)%Z /\ (2 * Z.abs (snd z) < 3 * 2 ^ Z.of_nat n)%Z /\
  ~ (2 ^ Z.of_nat n < Z.abs (fst z) /\ 2 ^ Z.of_nat n < Z.abs (snd z))%Z.

Definition dist2Z (z w : Z * Z) : Z :=
  ((fst z - fst w) * (fst z - fst w) + (snd z - snd w) * (snd z - snd w))%Z.

Local Open Scope R_scope.
(** mean power of an alphabet *)
Definition mean_power (l : list C) : R := Rmean (map (fun s => Cabs s ^ 2) l).

(** the points at positions [a] and [b] of [l] are nearest neighbours: different positions
    and no two points at different positions are closer *)
Definition nearest_neighbours (l : list C) (a b : nat) : Prop :=
  a <> b /\ exists p q, nth_error l a = Some p /\ nth_error l b = Some q /\
  forall c d p' q', c <> d -> nth_error l c = Some p' -> nth_error l d = Some q' ->
    Cabs (p - q)%C <= Cabs (p' - q')%C.

(** [d] is the minimum distance of [l] and is attained *)
Definition minimum_distance (l : list C) (d : R) : Prop :=
  (forall a b p q, a <> b -> nth_error l a = Some p -> nth_error l b = Some q -> d <= Cabs (p - q)%C) /\
  (exists a b p q, a <> b /\ nth_error l a = Some p /\ nth_error l b = Some q /\ Cabs (p - q)%C = d).
