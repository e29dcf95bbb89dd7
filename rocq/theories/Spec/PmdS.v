(** Two by two complex matrices. *)
From Coq Require Import Reals List.
From Verif Require Import Common.Cplx.
Local Open Scope R_scope.

(** the columns of ((a, b), (c, d)) are orthonormal *)
Definition unitary2 (a b c d : C) : Prop :=
  Cadd (Cmul (Cconj a) a) (Cmul (Cconj c) c) = C1 /\ Cadd (Cmul (Cconj b) b) (Cmul (Cconj d) d) = C1 /\
  Cadd (Cmul (Cconj a) b) (Cmul (Cconj c) d) = C0.
Definition silent (n : nat) : list C := repeat C0 n.
