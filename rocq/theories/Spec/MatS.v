(** Vocabulary for arrays read from files. *)
From Coq Require Import String List Arith Reals.
From Verif Require Import Common.Cplx.
Import ListNotations.

(** [a] has r rows of c entries *)
Definition has_shape {A} (a : list (list A)) (r c : nat) : Prop := length a = r /\ forall row, In row a -> length row = c.
(** a[r, c] *)
Definition entry {A} (a : list (list A)) (r c : nat) : option A :=
  match nth_error a r with Some row => nth_error row c | None => None end.
(** the file holds the array [a] under the name [k], and each name once *)
Definition holds (file : list (string * list (list C))) (k : string) (a : list (list C)) : Prop :=
  NoDup (map fst file) /\ In (k, a) file.
(** z = x + j*y *)
Definition quadratures (x y z : C) : Prop := z = (x + Ci * y)%C.
