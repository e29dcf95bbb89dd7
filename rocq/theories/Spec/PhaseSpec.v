(** Vocabulary for the phase and frequency recovery theorems. *)
From Coq Require Import List Arith ZArith Reals.
From Verif Require Import Common.Py Common.Cplx Common.SumX Common.Angle Model.Pilots Spec.Seq Spec.Equal Spec.Frames.
Import ListNotations.
Local Open Scope R_scope.

(** d is the squared distance from x to the nearest member of the alphabet *)
Definition least_dist (al : list C) (x : C) (d : R) : Prop :=
  (exists s, In s al /\ d = Cnorm2 (x - s)%C) /\ forall s, In s al -> d <= Cnorm2 (x - s)%C.
(** k is the first of the M candidates with the least cost *)
Definition first_min (f : nat -> R) (M k : nat) : Prop :=
  (k < M)%nat /\ (forall j, (j < M)%nat -> f k <= f j) /\ (forall j, (j < k)%nat -> f k < f j).
(** sample m of L samples has N samples on both sides *)
Definition interior (L N m : nat) : Prop := (N <= m)%nat /\ (m + N < L)%nat.
(** the test angle number k for sample t: one row for all samples or one row per sample *)
Definition test_angle (ta : list (list R)) (t k : nat) : R := cell 0 ta (if length ta =? 1 then 0 else t)%nat k.
(** sum of the costs c t k over the 2N samples m-N+1 .. m+N *)
Definition window_cost (c : nat -> nat -> R) (N m k : nat) : R := rsum (2 * N) (fun j => c (m - N + 1 + j)%nat k).
(** c t k is the squared distance of sample t, rotated by its test angle k, from its decision *)
Definition decision_costs (E : list C) (ta : list (list R)) (M : nat) (symbols : list C) (c : nat -> nat -> R) : Prop :=
  forall t k, (t < length E)%nat -> (k < M)%nat ->
    least_dist symbols (nth t E C0 * Cexpi (test_angle ta t k))%C (c t k).

(** a rectangular array of test angles with one row or one row per sample *)
Definition angles_for (ta : list (list R)) (L M : nat) : Prop :=
  shape ta 1 M \/ shape ta L M.
(** what position m holds after the search over the costs W: the first minimiser if it is below the
    limit, otherwise what was there *)
Definition chosen (W : nat -> R) (M : nat) (lim : R) (old new : nat) : Prop :=
  ((forall k, (k < M)%nat -> lim <= W k) /\ new = old) \/
  (first_min W M new /\ W new < lim).
(** costs limited to 100 *)
Definition capped (c : nat -> nat -> R) (t k : nat) : R := Rmin (c t k) 100.

(** [out] has the shape of [inp] and every sample keeps its modulus *)
Definition same_modulus (inp out : list (list C)) : Prop :=
  Forall2 (Forall2 (fun a b => Cabs b = Cabs a)) inp out.
(** sample n of every mode k is multiplied by exp(i ph(k,n)) *)
Definition rotated_by (ph : nat -> nat -> R) (inp out : list (list C)) : Prop :=
  length out = length inp /\
  forall k row, nth_error inp k = Some row -> exists row', nth_error out k = Some row' /\
    length row' = length row /\
    forall n s, nth_error row n = Some s -> nth_error row' n = Some (s * Cexpi (ph k n))%C.

(** [u] is [l] with full turns added so that no step exceeds half a turn; the first one is kept *)
Definition unwrapped (l u : list R) : Prop :=
  Forall2 (fun x y => turns (y - x)) l u /\ nth_error u 0 = nth_error l 0 /\
  forall i a b, nth_error u i = Some a -> nth_error u (S i) = Some b -> Rabs (b - a) <= PI.
(** mean of the n values of f from i on *)
Definition mean_at (f : nat -> R) (i n : nat) : R := rsum n (fun j => f (i + j)%nat) / INR n.
(** y is the value at t of the piecewise linear function through the points (pos q, v q), lo <= q <= hi,
    which is constant outside *)
Definition interpolates (pos : nat -> nat) (v : nat -> R) (lo hi t : nat) (y : R) : Prop :=
  ((t <= pos lo)%nat -> y = v lo) /\ ((pos hi <= t)%nat -> y = v hi) /\
  forall q, (lo <= q < hi)%nat -> (pos q <= t <= pos (S q))%nat ->
    y * (INR (pos (S q)) - INR (pos q)) = v q * (INR (pos (S q)) - INR t) + v (S q) * (INR t - INR (pos q)).

(** test phase number k of M on a quarter turn *)
Definition bps_angle (M k : nat) : R := (INR k / INR M - / 2) * (PI / 2).
Definition bps_angles (M : nat) : list (list R) := [map (bps_angle M) (seq 0 M)].
(** phase trace of L samples: the first test phase at the ends; at every interior sample a picked test
    phase plus quarter turns (none at the first one), with steps of at most half a quarter turn *)
Definition bps_trace (M L N : nat) (pick : nat -> nat -> Prop) (ph : list R) : Prop :=
  length ph = L /\
  (forall m, (m < L)%nat -> ~ interior L N m -> nth_error ph m = Some (bps_angle M 0)) /\
  (forall m, interior L N m -> exists k p, pick m k /\ nth_error ph m = Some p /\
     turns (4 * (p - bps_angle M k)) /\ (m = N -> p = bps_angle M k)) /\
  (forall m p q, interior L N m -> interior L N (S m) -> nth_error ph m = Some p -> nth_error ph (S m) = Some q ->
     Rabs (q - p) <= PI / 4).
(** an alphabet that a quarter turn maps to itself *)
Definition quarter_symmetric (al : list C) : Prop := forall s, In s al -> In (s * Ci)%C al.

(** a row of L samples with amplitudes r, phases phi and the additional phase theta0 + om*n *)
Definition polar_row (L : nat) (r phi : nat -> R) (theta0 om : R) (row : list C) : Prop :=
  length row = L /\ forall n, (n < L)%nat -> nth_error row n = Some (Cscal (r n) (Cexpi (phi n + (theta0 + om * INR n)))).

(** [rec] are the pilots [refs], scaled by rho > 0 and rotated by ph, element by element *)
Definition received (refs rec : list C) (ph : nat -> R) : Prop :=
  length rec = length refs /\
  forall q a, nth_error refs q = Some a -> a <> C0 /\ exists rho, 0 < rho /\
    nth_error rec q = Some (Cscal rho (a * Cexpi (ph q))%C).

(** strictly increasing *)
Definition increasing (l : list nat) : Prop :=
  forall i j a b, (i < j)%nat -> nth_error l i = Some a -> nth_error l j = Some b -> (a < b)%nat.
(** position of pilot number q when every frame of [fl] symbols has pilots at [sel] *)
Definition pilot_at (sel : list nat) (fl q : nat) : nat :=
  (nth (q mod length sel) sel 0 + (q / length sel) * fl)%nat.
(** [sel] is every [ratio]-th element of [l] *)
Definition strided (len ratio : nat) : nat := ((len + ratio - 1) / ratio)%nat.
Definition every_nth {A} (ratio : nat) (l sel : list A) : Prop :=
  length sel = strided (length l) ratio /\ forall i, nth_error sel i = nth_error l (i * ratio).
Definition limited {A} (b : option nat) (l : list A) : list A := match b with None => l | Some n => firstn n l end.
(** the odd averaging length *)
Definition odd_up (n : nat) : nat := if Nat.odd n then n else S n.

(** the pilots of mode k of the first n frames of [tx] are positive multiples of the references; the
    code takes every ratio-th reference and repeats them for every frame *)
Definition pilots_match (tx refs : list (list C)) (sel : list nat) (fl ratio n : nat) : Prop :=
  length refs = length tx /\
  forall k row prow, nth_error tx k = Some row -> nth_error refs k = Some prow ->
    (length sel <= strided (length prow) ratio)%nat /\
    forall q, (q < n * length sel)%nat -> exists a rho,
      nth_error prow ((q mod strided (length prow) ratio) * ratio) = Some a /\ a <> C0 /\ 0 < rho /\
      nth_error row (pilot_at sel fl q) = Some (Cscal rho a).

(** [s] is a received version of [t]: same frame layout and pilots, other samples *)
Definition same_layout (t s : psig C) : Prop :=
  p_idx_pil s = p_idx_pil t /\ p_pilots s = p_pilots t /\ p_frame_len s = p_frame_len t /\ p_seq_len s = p_seq_len t.
(** a transmitted signal of m frames whose pilot positions carry its pilots, none of which is zero;
    the pilots attribute lists the pilots of all frames (r = 1) or of one frame (r = m) *)
Definition pilot_signal (t : psig C) (pil : list bool) (m r : nat) : Prop :=
  (exists dat, mask_signal t (m * p_frame_len t) dat pil) /\ (1 <= m)%nat /\ (r = 1 \/ r = m)%nat /\ (0 <= p_seq_len t)%Z /\
  extract_pilots t None = Ok (map (tile r) (p_pilots t)) /\ Forall (Forall (fun a => a <> C0)) (p_pilots t).
(** number of leading pilots of a frame that are not used *)
Definition unused (s : psig C) (use_seq : bool) : nat := if use_seq then 0%nat else Z.to_nat (p_seq_len s).
(** the cases in which the references are repeated in step with the frames: one frame only, or no
    limit on the pilots of a frame and either stored pilots of one frame or all pilots used regularly *)
Definition in_step (t : psig C) (pil : list bool) (m r : nat) (use_seq : bool) (ratio : nat) (mb : option nat) (n : nat) : Prop :=
  n = 1%nat \/
  (mb = None /\ (r = m \/ (unused t use_seq = 0%nat /\ Nat.divide ratio (count_true pil)))).
