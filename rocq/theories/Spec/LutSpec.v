(** Vocabulary for symbol patterns. *)
From Coq Require Import List ZArith Arith Reals.
From Verif Require Import Common.Cplx Spec.Win.
Import ListNotations.
Local Open Scope R_scope.

(** level nr i of [ref] is nearest to x, the first one on ties *)
Definition nearest_level (ref : list R) (x : R) (i : nat) : Prop :=
  exists s, nth_error ref i = Some s /\
    forall j t, nth_error ref j = Some t -> Rabs (x - s) <= Rabs (x - t) /\ ((j < i)%nat -> Rabs (x - s) < Rabs (x - t)).
(** the N numbers around position k (N/2 before it), cyclically *)
Definition pattern_of (l : list nat) (N k : nat) : list nat :=
  map (fun j => nth ((k + length l - N / 2 + j) mod length l) l 0%nat) (seq 0 N).
(** the marked positions with this pattern *)
Definition where_pattern (mask : list bool) (l : list nat) (N : nat) (ds : list nat) : list nat :=
  filter (fun k => nth k mask false && (if list_eq_dec Nat.eq_dec (pattern_of l N k) ds then true else false))%bool (seq 0 (length mask)).
(** numbers with N digits below M *)
Definition digits (M N : nat) (ds : list nat) : Prop := length ds = N /\ Forall (fun d => (d < M)%nat) ds.
(** mean, 0 for nothing *)
Definition mean0 (l : list R) : R := match l with [] => 0 | _ => Rsum l / INR (length l) end.
