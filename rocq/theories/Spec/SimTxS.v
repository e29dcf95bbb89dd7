(** Vocabulary for the simulation of a transmitted pilot frame. *)
From Coq Require Import List Arith ZArith Reals.
From Verif Require Import Common.Py Common.Cplx Common.SumX Spec.ImpairSpec.
Import ListNotations.
Local Open Scope R_scope.

(** y is x shifted to mean zero and scaled to mean power one *)
Definition normalised (x y : list C) : Prop :=
  (exists a, shifted_scaled (sample_mean x) a x y) /\ sample_mean y = C0 /\ sample_power y = 1.
Definition or0 (o : option R) (f : R -> R) : R := match o with Some x => f x | None => 0 end.

(** w_k = (u_k + s (n_k + j q_k) / sqrt 2) exp(2 pi j k f / fs) exp(j (p_0 + ... + p_k)): noise of strength s,
    frequency offset f, phase noise with the increments p *)
Definition distorted (s f fs : R) (n q p : nat -> R) (u w : list C) : Prop :=
  length w = length u /\ forall k z, nth_error u k = Some z ->
    nth_error w k = Some (Cmul (Cadd z (Cscal (s / sqrt 2) (n k, q k)))
                              (Cexpi (2 * PI * INR k * f / fs + rsum (S k) p))).

(** one draw per sample for every mode *)
Definition draws_fit (n : nat) (dr : nat -> list R * list R * list R) : Prop :=
  forall l, length (fst (fst (dr l))) = n /\ length (snd (fst (dr l))) = n /\ length (snd (dr l)) = n.
