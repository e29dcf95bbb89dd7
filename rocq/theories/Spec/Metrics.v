(** Vocabulary for quality metrics. *)
From Coq Require Import List Arith Bool Reals.
From Verif Require Import Common.Py Common.Cplx Model.Constellation.
Import ListNotations.
Local Open Scope R_scope.

(** the mapping of one of the two library classes with k bits per symbol *)
Definition lib_mapping (k : nat) (mp : mapping) : Prop := qam_mapping k = Ok mp \/ psk_mapping k = Ok mp.

(** s = alphabet[i] is nearest to x and no earlier symbol is as near *)
Definition nearest_first (alphabet : list C) (x : C) (i : nat) (s : C) : Prop :=
  nth_error alphabet i = Some s /\
  (forall j t, nth_error alphabet j = Some t -> Cabs (x - s)%C <= Cabs (x - t)%C) /\
  (forall j t, (j < i)%nat -> nth_error alphabet j = Some t -> Cabs (x - s)%C < Cabs (x - t)%C).
Definition nearest (alphabet : list C) (x s : C) : Prop :=
  In s alphabet /\ forall t, In t alphabet -> Cabs (x - s)%C <= Cabs (x - t)%C.

(** positions at which two sequences differ *)
Definition n_errors (a b : list C) : nat :=
  length (filter (fun p => if Ceq_dec (fst p) (snd p) then false else true) (combine a b)).

(** all samples are symbols of the alphabet *)
Definition over (alphabet : list C) (rows : list (list C)) : Prop := Forall (Forall (fun s => In s alphabet)) rows.

(** mean power, and mean squared distance of two sequences *)
Definition power (l : list C) : R := Rmean (map Cnorm2 l).
Definition distance2 (a b : list C) : R := Rmean (map (fun p => Cnorm2 (fst p - snd p)%C) (combine a b)).
