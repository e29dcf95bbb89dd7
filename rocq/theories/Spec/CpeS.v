(** Vocabulary for the periodic-pilot phase estimator. *)
From Coq Require Import List Arith Reals.
From Verif Require Import Common.Cplx Spec.PhaseSpec.
Import ListNotations.

(** how many blocks of bl symbols are processed: whole blocks, at most mb, a multiple of u, at most nref *)
Definition block_limit (L bl : nat) (mb : option nat) : nat := match mb with None => L / bl | Some m => Nat.min (L / bl) m end.
Definition used_blocks (L nref bl u : nat) (mb : option nat) : nat := Nat.min (u * (block_limit L bl mb / u)) nref.
(** the pilots of [tx] (first symbol of every block, every u-th block used) are positive multiples of the references *)
Definition block_pilots (tx refs : list (list C)) (bl u n : nat) : Prop :=
  forall k row prow q, nth_error tx k = Some row -> nth_error refs k = Some prow -> q < n ->
    exists a rho, nth_error prow (q * u) = Some a /\ a <> C0 /\ (0 < rho)%R /\ nth_error row (q * (bl * u)) = Some (Cscal rho a).
(** what the estimator uses at pilot q of n: the phase itself at the first h pilots, then the mean of the 2h+1
    phases around q, at the last h pilots the last such mean *)
Definition edge_mean (f : nat -> R) (n h q : nat) : R :=
  if q <? h then f q else mean_at f (Nat.min q (n - 1 - h) - h) (2 * h + 1).
(** [out] is [row] (B blocks of bl symbols) without the first symbol of every block *)
Definition data_of {A} (bl B : nat) (row out : list A) : Prop :=
  length out = B * (bl - 1) /\
  forall b j, b < B -> j < bl - 1 -> nth_error out (b * (bl - 1) + j) = nth_error row (b * bl + 1 + j).
