(** core/equalisation/equalisation.py 262-269, 284-309 and 375-398: the square contour constant,
    orthogonalizetaps and _lms_init.  None of them is called by the library. *)
From Coq Require Import List ZArith Arith Bool Reals.
From Verif Require Import Common.Py Common.Cplx Model.Equaliser.
Import ListNotations.
Local Open Scope R_scope.

(** np.sign of a real number *)
Definition np_sign (x : R) : R := if Rlt_dec 0 x then 1 else if Rlt_dec x 0 then -1 else 0.
(** lines 262-263 for one symbol *)
Definition cal_Rdash (s : C) : C :=
  let p := Re s + Im s in let m := Re s - Im s in
  (Cscal (Rabs p + Rabs m) (np_sign p + np_sign m, np_sign p - np_sign m)%R * Cconj s)%C.
(** complex division; [None] is nan *)
Definition np_cdiv (a b : C) : option C :=
  if Ceq_dec b C0 then None else Some (Cscal (/ Cnorm2 b) (a * Cconj b)%C).
(** lines 265-269 *)
Definition cal_Rsca (nbits : nat) : option C :=
  let syms := qam_alphabet nbits in
  np_cdiv (Cmean (map (fun s => Cscal ((Rabs (Re s + Im s) + Rabs (Re s - Im s)) ^ 2) (cal_Rdash s)) syms))
          (Cscal 4 (Cmean (map cal_Rdash syms))).

(** lines 284-309 for a two-dimensional array *)
Definition orthogonalizetaps (wx : list (list C)) : list (list C) := map (fun r => map Cconj (rev r)) (rev wx).

(** lines 375-398: the name pols does not exist.  A given wxy has the shape (modes, modes, taps); the
    result would be a tuple. *)
Definition lms_init (E : list (list C)) (os : nat) (wxy : option (list (list (list C)))) (ntaps : nat) (trsyms : option Z)
  : result unit :=
  match wxy with
  | None => Err NameError
  | Some w =>
      let! w0 := getn w 0 in
      let ntaps := length (hd [] w0) in
      match trsyms with
      | None => if (os =? 0)%nat || (ntaps =? 0)%nat then Err ZeroDivisionError else Err NameError
      | Some _ => Err NameError
      end
  end.
