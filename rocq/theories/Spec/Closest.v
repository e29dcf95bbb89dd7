(** Closest fractions and rounded-up lengths. *)
From Coq Require Import ZArith QArith Qabs.
Local Open Scope Q_scope.

(** [y] is a fraction in lowest terms with denominator at most [mx] and no such fraction is closer to [x] *)
Definition closest (mx : positive) (x y : Q) : Prop :=
  Z.gcd (Qnum y) (QDen y) = 1%Z /\ (Qden y <= mx)%positive /\
  forall z, (Qden z <= mx)%positive -> Qabs (y - x) <= Qabs (z - x).
(** [m] is the least integer that is at least n*up/down *)
Definition ceil_of (n up down m : Z) : Prop := (n * up <= m * down /\ (m - 1) * down < n * up)%Z.
