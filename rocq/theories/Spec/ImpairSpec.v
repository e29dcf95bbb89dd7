(** Vocabulary for the theorems about impairments and signal helpers. *)
From Coq Require Import List Arith ZArith Reals.
From Verif Require Import Common.Py Common.Cplx Common.SumX Spec.Seq Spec.Equal.
Import ListNotations.
Local Open Scope R_scope.

(** sum of |z|^2 over all samples of all modes *)
Definition field_energy (E : list (list C)) : R := Rsum (map Cnorm2 (concat E)).
(** mean and mean power of a non-empty list of samples *)
Definition sample_mean (x : list C) : C := Cscal (/ INR (length x)) (Csum x).
Definition sample_power (x : list C) : R := Rsum (map Cnorm2 x) / INR (length x).
(** all samples are equal *)
Definition constant (x : list C) : Prop := forall a b, In a x -> In b x -> a = b.
(** every sample is mapped by z -> (z - m) * a, with a > 0 *)
Definition shifted_scaled (m : C) (a : R) (x y : list C) : Prop := 0 < a /\ y = map (fun z => Cscal a (z - m)%C) x.

(** [y] is [x] delayed circularly by d *)
Definition delayed {A} (d : Z) (x y : list A) : Prop :=
  length y = length x /\ forall k, (k < length x)%nat ->
    nth_error y k = nth_error x (Z.to_nat ((Z.of_nat k - d) mod Z.of_nat (length x))).

(** real and imaginary part lie in [-a, a] *)
Definition within (a : R) (z : C) : Prop := Rabs (fst z) <= a /\ Rabs (snd z) <= a.
(** a is the largest absolute value of the real and imaginary parts of the samples *)
Definition peak (a : R) (x : list C) : Prop :=
  (forall z, In z x -> within a z) /\ exists z, In z x /\ (Rabs (fst z) = a \/ Rabs (snd z) = a).
(** both quadratures of y are within e of those of x *)
Definition near (e : R) (x y : C) : Prop := Rabs (fst y - fst x) <= e /\ Rabs (snd y - snd x) <= e.
(** y takes its quadratures from the n values lo + k*step *)
Definition on_levels (lo step : R) (n : nat) (y : C) : Prop :=
  (exists k, (k < n)%nat /\ fst y = lo + INR k * step) /\ (exists k, (k < n)%nat /\ snd y = lo + INR k * step).
(** x limited to [-a, a] *)
Definition limit (a x : R) : R := Rmax (- a) (Rmin a x).
(** lo and hi are the least and largest element *)
Definition spans (lo hi : R) (l : list R) : Prop := In lo l /\ In hi l /\ forall x, In x l -> lo <= x <= hi.
(** samples n / N of the complex exponential with k periods in N samples *)
Definition tone (N k : nat) : list C := map (fun n => Cexpi (2 * PI * INR k * INR n / INR N)) (seq 0 N).
