(** Hybrid frames. *)
From Coq Require Import List Arith.
Import ListNotations.

(** [row] consists of [n] frames of [a] values of [v1] followed by [b] values of [v2], in order *)
Definition frames_of_two {A} (n a b : nat) (row v1 v2 : list A) : Prop :=
  length row = n * (a + b) /\ length v1 = n * a /\ length v2 = n * b /\
  forall q p, q < n ->
    (p < a -> nth_error row (q * (a + b) + p) = nth_error v1 (q * a + p)) /\
    (p < b -> nth_error row (q * (a + b) + a + p) = nth_error v2 (q * b + p)).
