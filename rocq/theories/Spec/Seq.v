(** Vocabulary for statements about sequences: zero extension, correlation, periodic repetition. *)
From Coq Require Import List ZArith Reals Bool.
From Verif Require Import Common.Cplx Common.SumX.
Import ListNotations.

(** x[i], zero outside the array *)
Definition ext (x : list C) (i : Z) : C :=
  if (0 <=? i)%Z then nth (Z.to_nat i) x C0 else C0.

(** sum over k of x[d+k] * conj(y[k]) *)
Definition corr (x y : list C) (d : Z) : C :=
  csum (length y) (fun k => (ext x (d + Z.of_nat k) * Cconj (ext y (Z.of_nat k)))%C).

(** energy of the samples of x under y when y is placed at d *)
Definition energy_at (x y : list C) (d : Z) : R :=
  rsum (length y) (fun k => Cnorm2 (ext x (d + Z.of_nat k))).
Definition seq_energy (y : list C) : R := energy_at y y 0.

(** out[k] = l[(k - offset) mod len(l)] for all k: the periodic repetition of l delayed by offset *)
Definition delayed_repetition {A} (l : list A) (offset : Z) (out : list A) : Prop :=
  forall k, k < length out -> nth_error out k = nth_error l (Z.to_nat ((Z.of_nat k - offset) mod Z.of_nat (length l))).

(** y occurs in x at position p up to the factor u *)
Definition occurs_at (x y : list C) (p : Z) (u : C) : Prop :=
  (0 <= p /\ p + Z.of_nat (length y) <= Z.of_nat (length x))%Z /\
  forall k, k < length y -> ext x (p + Z.of_nat k) = (u * ext y (Z.of_nat k))%C.

(** multiplication by the q-th power of the imaginary unit *)
Definition quarter (q : nat) : C :=
  match q with 0 => C1 | 1 => Ci | 2 => (-1, 0)%R | _ => (0, -1)%R end.
Definition turned (q : nat) (y : list C) : list C := map (fun s => (quarter q * s)%C) y.

(** seq occurs in data at index i *)
Definition appears {A} (sq data : list A) (i : nat) : Prop :=
  i + length sq <= length data /\ forall k, k < length sq -> nth_error data (i + k) = nth_error sq k.

(** the lags at which x and y overlap *)
Definition lag (x y : list C) (d : Z) : Prop := (- (Z.of_nat (length y) - 1) <= d <= Z.of_nat (length x) - 1)%Z.
Definition all_nonzero (y : list C) : Prop := forall s, In s y -> s <> C0.
(** offsets for which a sequence of length L can be repeated to length n *)
Definition fits (L n : nat) (offset : Z) : Prop :=
  (offset <= Z.of_nat n /\ (offset <= 0 \/ offset mod Z.of_nat L <> 0 \/ offset + Z.of_nat L <= Z.of_nat n))%Z.
(** rx is tx repeated, delayed by p and turned by q quarter turns *)
Definition periodic_copy (tx : list C) (p : Z) (q : nat) (rx : list C) : Prop :=
  forall k, k < length rx -> nth_error rx k = nth_error (turned q tx) (Z.to_nat ((Z.of_nat k - p) mod Z.of_nat (length tx))).
(** no cyclic shift of tx, other than the trivial one, is tx times a unit factor *)
Definition no_self_copy (tx : list C) : Prop :=
  forall s u, 0 < s < length tx -> Cnorm2 u = 1%R ->
    ~ (forall k, k < length tx -> nth ((k + s) mod length tx) tx C0 = (u * nth k tx C0)%C).
(** all rows have length n *)
Definition rect {A} (m : list (list A)) (n : nat) : Prop := Forall (fun r => length r = n) m.
(** l[i:i+n] *)
Definition window {A} (l : list A) (i n : nat) : list A := firstn n (skipn i l).
