(** Vocabulary for the two-stage blind phase search. *)
From Coq Require Import List Arith ZArith Reals.
From Verif Require Import Common.Cplx Common.SumX Common.Angle Spec.Equal Spec.PhaseSpec.
Import ListNotations.
Local Open Scope R_scope.

(** second-stage offset number j of B: evenly spaced over one step of the first stage, ends included;
    a single one is at the lower end *)
Definition fine_offset (M B j : nat) : R := ((if B =? 1 then 0 else INR j / INR (B - 1)) - / 2) * (PI / (2 * INR M)).
(** c t j is the squared distance of sample t, turned by its first-stage phase and offset j, from its decision *)
Definition fine_costs (row : list C) (th : nat -> R) (M B : nat) (symbols : list C) (c : nat -> nat -> R) : Prop :=
  forall t j, (t < length row)%nat -> (j < B)%nat -> least_dist symbols (nth t row C0 * Cexpi (th t + fine_offset M B j))%C (c t j).
(** [th] are the phases of the first stage: picked test phases, the first one at the ends *)
Definition coarse_phases (M L N : nat) (pick : nat -> nat -> Prop) (th : nat -> R) : Prop :=
  (forall m, (m < L)%nat -> ~ interior L N m -> th m = bps_angle M 0) /\
  (forall m, interior L N m -> exists k, pick m k /\ th m = bps_angle M k).
(** phase trace of L samples: the first-stage phase and an offset, the picked one at interior samples, the
    first one at the ends, plus quarter turns such that no step exceeds half a quarter turn *)
Definition two_stage_trace (M B L N : nat) (pick : nat -> nat -> Prop) (th : nat -> R) (ph : list R) : Prop :=
  length ph = L /\
  (forall m, (m < L)%nat -> exists j p, nth_error ph m = Some p /\ (j < B)%nat /\ turns (4 * (p - (th m + fine_offset M B j))) /\
     (m = 0%nat -> p = th m + fine_offset M B j) /\ (interior L N m -> pick m j) /\ (~ interior L N m -> j = 0%nat)) /\
  (forall m p q, nth_error ph m = Some p -> nth_error ph (S m) = Some q -> Rabs (q - p) <= PI / 4).
