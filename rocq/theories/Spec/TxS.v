(** Vocabulary for the theorems about the transmitter simulation. *)
From Coq Require Import List Arith ZArith Reals.
From Verif Require Import Common.Py Common.Cplx Model.Transmitter Spec.ImpairSpec.
Import ListNotations.
Local Open Scope R_scope.

(** sample i of a signal that is zero before its start *)
Definition at_time (x : list C) (i : Z) : C := if (i <? 0)%Z then C0 else nth (Z.to_nat i) x C0.
(** y solves the difference equation of a second-order section for the input x, at rest before *)
Definition recursion (s : section) (x y : list C) : Prop :=
  length y = length x /\ forall i, (i < length x)%nat ->
    let n := Z.of_nat i in
    (at_time y n + Cscal (s_a1 s) (at_time y (n - 1)) + Cscal (s_a2 s) (at_time y (n - 2)) =
     Cscal (s_b0 s) (at_time x n) + Cscal (s_b1 s) (at_time x (n - 1)) + Cscal (s_b2 s) (at_time x (n - 2)))%C.
(** the sections one after the other *)
Fixpoint cascade (sos : list section) (x y : list C) : Prop :=
  match sos with
  | [] => y = x
  | s :: r => exists u, recursion s x u /\ cascade r u y
  end.
(** sample-wise a*x + b*y *)
Definition lin_comb (a : C) (x : list C) (b : C) (y : list C) : list C :=
  map (fun p => (a * fst p + b * snd p)%C) (combine x y).

(** numerator and denominator of the transfer function at the angular frequency w (per sample) *)
Definition sec_num (s : section) (w : R) : C :=
  (RtoC (s_b0 s) + RtoC (s_b1 s) * Cexpi (- w) + RtoC (s_b2 s) * Cexpi (- (2 * w)))%C.
Definition sec_den (s : section) (w : R) : C :=
  (C1 + RtoC (s_a1 s) * Cexpi (- w) + RtoC (s_a2 s) * Cexpi (- (2 * w)))%C.
Definition cprod (l : list C) : C := fold_right Cmul C1 l.
(** h is the transfer function of the sections at w *)
Definition transfer (sos : list section) (w : R) (h : C) : Prop :=
  (h * cprod (map (fun s => sec_den s w) sos) = cprod (map (fun s => sec_num s w) sos))%C.

(** standard deviation of the error of a quantiser for [-a, a] with 2^enob steps *)
Definition quant_sigma (a enob : R) : R := 2 * a / Rpower 2 enob / sqrt 12.

(** frequencies increase along the rows *)
Definition increasing (rows : list dac_row) : Prop :=
  forall i j a b, (i < j)%nat -> nth_error rows i = Some a -> nth_error rows j = Some b -> r_f a < r_f b.
