(** Vocabulary for undisturbed transmission. *)
From Coq Require Import List ZArith Reals.
From Verif Require Import Common.Cplx Common.SumX Spec.Seq.
Import ListNotations.

(** the received mode [r] is the transmitted mode [i], repeated, delayed by p and turned by q quarter turns; it is
    received for at least two periods, and no other transmitted mode occurs in it up to a phase *)
Definition arrives (tx : list (list C)) (i : nat) (p : Z) (q : nat) (r : list C) : Prop :=
  q < 4 /\ (exists t, nth_error tx i = Some t /\ 2 * length t <= length r /\ periodic_copy t p q r) /\
  forall i' t', i' <> i -> nth_error tx i' = Some t' -> forall d u, Cnorm2 u = 1%R -> ~ occurs_at r t' d u.

(** the same with a margin: the correlation of the received mode with a transmitted mode is at most [rho], except
    where the mode [i] is found with the turn q *)
Definition arrives_apart (tx : list (list C)) (i : nat) (p : Z) (q : nat) (rho : R) (c : list C) : Prop :=
  q < 4 /\ (exists t, nth_error tx i = Some t /\ 2 * length t <= length c /\ periodic_copy t p q c /\
              forall d, ~ occurs_at c t d (quarter q) -> (Cabs (corr c t d) <= rho)%R) /\
  forall i' t', i' <> i -> nth_error tx i' = Some t' -> forall d, (Cabs (corr c t' d) <= rho)%R.
(** the rows differ by at most [delta] in every sample *)
Definition close (delta : R) (rx clean : list (list C)) : Prop :=
  Forall2 (Forall2 (fun x s => (Cabs (x - s)%C <= delta)%R)) rx clean.
Definition abs_sum (t : list C) : R := rsum (length t) (fun k => Cabs (nth k t C0)).
