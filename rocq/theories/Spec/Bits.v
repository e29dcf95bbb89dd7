(** Vocabulary for statements about bits and labels (independent of the model). *)
From Coq Require Import List NArith Arith Bool.
Import ListNotations.

(** two numbers differ in exactly one binary digit *)
Definition differ_in_one_bit (a b : N) : Prop :=
  exists i, forall j, N.testbit a j <> N.testbit b j <-> j = i.

(** the number written by a bit string, most significant bit first *)
Definition bits_value (l : list bool) : N :=
  fold_left (fun acc b => (2 * acc + (if b : bool then 1 else 0))%N) l 0%N.

(** bit [b] of label [i] in a word of [k] bits, counted from the most significant one *)
Definition label_bit (k b i : nat) : bool := N.testbit (N.of_nat i) (N.of_nat (k - 1 - b)).
