(** Vocabulary for statements about bit sequences. *)
From Coq Require Import List NArith Arith Bool.
Import ListNotations.

(** the seed bits, least significant first, followed by the output bits *)
Definition seeded (order : nat) (seed : N) (out : list bool) : list bool :=
  map (fun j => N.testbit seed (N.of_nat j)) (seq 0 order) ++ out.

(** position [i] of [l] is the xor of the positions [t1] and [t2] before it *)
Definition recurrence_at (l : list bool) (t1 t2 i : nat) : Prop :=
  t1 <= i /\ t2 <= i /\
  exists a b, nth_error l (i - t1) = Some a /\ nth_error l (i - t2) = Some b /\ nth_error l i = Some (xorb a b).

(** the [n] bits of [l] starting at [i] *)
Definition window {A} (l : list A) (i n : nat) : list A := firstn n (skipn i l).

(** the two feedback distances of the supported orders, x^7+x+1, x^15+x+1, x^23+x^5+1, x^31+x^3+1 *)
Definition prbs_taps (order : nat) : nat * nat :=
  match order with 7 => (7, 6) | 15 => (15, 14) | 23 => (23, 18) | _ => (31, 28) end.
Definition prbs_orders : list nat := [7; 15; 23; 31].
