(** Shapes of pulses; [None] is nan or inf. *)
From Coq Require Import Reals.
Local Open Scope R_scope.

(** symmetric about x0 with value A there, positive and falling on either side *)
Definition bell (f : R -> option R) (A x0 : R) : Prop :=
  f x0 = Some A /\ (forall d, f (x0 + d) = f (x0 - d)) /\
  forall x y, Rabs (x - x0) < Rabs (y - x0) -> exists u v, f x = Some u /\ f y = Some v /\ 0 < v < u.
(** odd about x0, rising, between -A and A *)
Definition step_up (f : R -> option R) (A x0 : R) : Prop :=
  (forall x, exists u, f x = Some u /\ - A < u < A) /\
  (forall d u, f (x0 + d) = Some u -> f (x0 - d) = Some (- u)) /\
  forall x y, x < y -> exists u v, f x = Some u /\ f y = Some v /\ u < v.
