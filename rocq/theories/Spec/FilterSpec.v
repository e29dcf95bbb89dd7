(** Vocabulary for front end, filter and theory properties; refers to no model function. *)
From Coq Require Import List ZArith Arith Reals.
From Verif Require Import Common.Cplx Common.SumX Common.Dft Common.Erf Spec.ImpairSpec.
Import ListNotations.
Local Open Scope R_scope.

(** second moments of the real and imaginary part about their means *)
Definition varI (x : list C) : R := Rsum (map (fun z => (fst z - fst (sample_mean x)) ^ 2) x).
Definition varQ (x : list C) : R := Rsum (map (fun z => (snd z - snd (sample_mean x)) ^ 2) x).
Definition covIQ (x : list C) : R := Rsum (map (fun z => (fst z - fst (sample_mean x)) * (snd z - snd (sample_mean x))) x).

(** every [os]-th sample, starting with the first *)
Definition every (os : nat) (x y : list C) : Prop :=
  length y = ((length x + os - 1) / os)%nat /\ forall i, (i < length y)%nat -> nth i y C0 = nth (os * i) x C0.

(** the signed frequency of bin k of an N-point spectrum sampled at fs *)
Definition bin_freq (fs : R) (N k : nat) : R := (if (2 * k <? N)%nat then INR k else INR k - INR N) * (fs / INR N).
(** y is x filtered with the real gain H *)
Definition filtered (H : R -> R) (fs : R) (x y : list C) : Prop :=
  length y = length x /\
  forall k, (k < length x)%nat -> nth k (dft y) C0 = Cscal (H (bin_freq fs (length x) k)) (nth k (dft x) C0).
(** same, for a gain given per bin *)
Definition filtered_bins (H : nat -> C) (x y : list C) : Prop :=
  length y = length x /\ forall k, (k < length x)%nat -> nth k (dft y) C0 = (H k * nth k (dft x) C0)%C.

(** symbols x spread out with os-1 zeros after each *)
Definition zero_stuffed (os : nat) (x y : list C) : Prop :=
  length y = (os * length x)%nat /\
  forall i, (i < length y)%nat -> nth i y C0 = if (i mod os =? 0)%nat then nth (i / os) x C0 else C0.

(** Nyquist's criterion: the shifts by multiples of 1/T add up to c; only finitely many shifts are
    different from zero *)
Definition nyquist (H : R -> R) (T c : R) : Prop :=
  forall f, exists k0 : Z,
    H (f + IZR (k0 - 1) / T) + H (f + IZR k0 / T) + H (f + IZR (k0 + 1) / T) = c /\
    forall k : Z, (k < k0 - 1 \/ k0 + 1 < k)%Z -> H (f + IZR k / T) = 0.

(** Gray-mapped square M-QAM in additive noise with Es/N0 = snr: probability of an error in one of
    the two dimensions, a PAM with sqrt(M) levels *)
Definition pam_error (snr M : R) : R := (1 - 1 / sqrt M) * erfc (sqrt (3 * snr / (2 * (M - 1)))).
