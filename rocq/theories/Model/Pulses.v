(** core/special_fcts.py 30-131 at one point: ttanh, gauss, supergauss, sech and rcos_time.
    [None] is nan or inf.  Division by a width w or T of zero gives nan or inf in numpy. *)
From Coq Require Import Reals ZArith Bool.
From Verif Require Import Common.Py.
Local Open Scope R_scope.

Definition divw (a b : R) : option R := if Req_EM_T b 0 then None else Some (a / b).
Definition omap {A B} (f : A -> B) (o : option A) : option B := match o with Some a => Some (f a) | None => None end.

(** lines 30-51 *)
Definition ttanh (x A x0 w : R) : option R := omap (fun u => A * tanh u) (divw (x - x0) w).
(** lines 54-75 *)
Definition gauss (x A x0 w : R) : option R := omap (fun u => A * exp (- u ^ 2 / 2)) (divw (x - x0) w).

(** numpy's u**p for floats: nan for negative u and p not an integer *)
Definition np_pow (u p : R) : option R :=
  if Req_EM_T u 0 then (if Req_EM_T p 0 then Some 1 else if Rlt_dec p 0 then None else Some 0)
  else if Rlt_dec 0 u then Some (Rpower u p)
  else if Req_EM_T p (IZR (Int_part p)) then Some (powerRZ u (Int_part p)) else None.
(** lines 78-101 *)
Definition supergauss (x A x0 w o : R) : option R :=
  match divw (x - x0) w with
  | None => None
  | Some u => omap (fun v => A * exp (- v / 2)) (np_pow u (2 * o))
  end.
(** lines 104-125 *)
Definition sech (x A x0 w : R) : option R := omap (fun u => A / cosh u) (divw (x - x0) w).

(** np.sinc *)
Definition np_sinc (x : R) : R := if Req_EM_T x 0 then 1 else sin (PI * x) / (PI * x).
(** lines 128-131 *)
Definition rcos_time (t beta T : R) : option R :=
  match divw t T with
  | None => None
  | Some u => divw (np_sinc u * cos (u * PI * beta)) (1 - 4 * (beta * t / T) ^ 2)
  end.
