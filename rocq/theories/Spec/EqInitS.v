(** Vocabulary for statements about pairs of filters (independent of the model). *)
From Coq Require Import List Reals.
From Verif Require Import Common.Cplx.
Import ListNotations.
Local Open Scope R_scope.

(** inner product of two rows, and of two sets of rows *)
Definition inner (a b : list C) : C := Csum (map (fun p => (fst p * Cconj (snd p))%C) (combine a b)).
Definition inner2 (a b : list (list C)) : C := Csum (map (fun p => inner (fst p) (snd p)) (combine a b)).
Definition tap_energy (a : list (list C)) : R := Rsum (map Cnorm2 (concat a)).
(** frequency response of a filter *)
Definition response (r : list C) (w : R) : C :=
  Csum (map (fun n => (nth n r C0 * Cexpi (- (w * INR n)))%C) (seq 0 (length r))).
(** determinant of the matrix of two filters of two rows at one frequency *)
Definition det_response (x y : list (list C)) (w : R) : C :=
  (response (nth 0 x []) w * response (nth 1 y []) w - response (nth 1 x []) w * response (nth 0 y []) w)%C.
(** half-width of the square through a point *)
Definition square_norm (s : C) : R := Rmax (Rabs (Re s)) (Rabs (Im s)).
