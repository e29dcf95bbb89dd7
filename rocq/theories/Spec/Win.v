(** Vocabulary for windows. *)
From Coq Require Import List Arith Reals.
From Verif Require Import Common.Cplx.
Import ListNotations.

(** element i of the cyclic continuation *)
Definition cyc {A} (l : list A) (i : nat) : option A := nth_error l (i mod length l).
(** element i of the continuation by a constant *)
Definition padded {A} (v : A) (l : list A) (i : nat) : option A :=
  match nth_error l i with Some a => Some a | None => Some v end.
(** [out] consists of n frames of length len; element j of frame i is src (i*hop+j) *)
Definition frames_of {A} (src : nat -> option A) (n len hop : nat) (out : list (list A)) : Prop :=
  length out = n /\
  forall i, i < n -> exists fr, nth_error out i = Some fr /\ length fr = len /\
    forall j, j < len -> nth_error fr j = src (i * hop + j) /\ nth_error fr j <> None.
(** mean of the n samples from index i on *)
Definition window_mean (l : list C) (i n : nat) : C := Cscal (/ INR n) (Csum (firstn n (skipn i l))).
(** numbers of frames that fit into / cover l >= 1 samples *)
Definition n_cut (l len hop : nat) : nat := 1 + (l - len) / hop.
Definition n_cover (l len hop : nat) : nat := 1 + (l - len + hop - 1) / hop.
