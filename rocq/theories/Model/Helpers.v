(** helpers.py (dump_edges and find_pilot_idx are in Windows).  Two-dimensional arrays are lists of rows; a value that numpy computes as 0/0 is
    [None]. *)
From Coq Require Import List ZArith Arith Bool Reals.
From Verif Require Import Common.Py Common.Cplx.
Import ListNotations.
Local Open Scope R_scope.

(** x.max() / x.min() of a real array: ValueError on an empty one *)
Definition rmaxl (l : list R) : result R :=
  match l with [] => Err ValueError | x :: l' => Ok (fold_left Rmax l' x) end.
Definition rminl (l : list R) : result R :=
  match l with [] => Err ValueError | x :: l' => Ok (fold_left Rmin l' x) end.
(** x / r for every element of a complex array: a division of zero by zero gives nan.  (The divisors
    below are zero only when all elements are zero.) *)
Definition cdiv_row (r : R) (row : list C) : list (option C) :=
  map (fun z => if Req_EM_T r 0 then None else Some (Cscal (/ r) z)) row.

(** helpers.py 31-35 *)
Definition dB2lin (x : R) : R := Rpower 10 (x / 10).
(** helpers.py 38-42; -inf and nan for x <= 0 are [None] *)
Definition lin2dB (x : R) : option R := if Rlt_dec 0 x then Some (10 * (ln x / ln 10)) else None.

(** helpers.py 45-57, normalise_and_center (both branches do this to every row; a new array) *)
Definition center_row (E : list C) : list C := map (fun z => (z - Cmean E)%C) E.
Definition mean_power (E : list C) : R := Rmean (map Cnorm2 E).
Definition nc_row (E : list C) : list (option C) := cdiv_row (sqrt (mean_power (center_row E))) (center_row E).
Definition normalise_and_center (E : list (list C)) : list (list (option C)) := map nc_row E.

(** an array of one or two dimensions *)
Inductive ndarray := D1 (row : list C) | D2 (rows : list (list C)).

(** helpers.py 59-75, normalise_and_center_pil: [sig[:, idx_pil]] on line 63 precedes the test of
    the dimension, so it raises IndexError for one-dimensional arrays *)
Definition nc_pil_row (idx : list bool) (row : list C) : result (list (option C)) :=
  let! pil := mask_get idx row in
  let ct := Cmean pil in
  Ok (cdiv_row (sqrt (mean_power (center_row pil))) (map (fun z => (z - ct)%C) row)).
Definition normalise_and_center_pil (sig : ndarray) (idx : list bool) : result (list (list (option C))) :=
  match sig with
  | D1 _ => Err IndexError
  | D2 rows => mapM (nc_pil_row idx) rows
  end.

(** helpers.py 86-95, set_mid_point of a complex array *)
Definition set_mid_point (E : list C) (mid : C) : result (list C) :=
  let! a := rmaxl (map fst E) in let! b := rminl (map fst E) in
  let! c := rmaxl (map snd E) in let! d := rminl (map snd E) in
  Ok (map (fun z => (z - ((a + b) / 2, (c + d) / 2) + mid)%C) E).

(** helpers.py 98-108, rescale_signal of a complex array.  A one-dimensional array has a scalar
    scale factor, which cannot be indexed (IndexError).  [swing] is broadcast against the modes. *)
Definition row_peak (row : list C) : result R :=
  let! a := rmaxl (map (fun z => Rabs (fst z)) row) in
  let! b := rmaxl (map (fun z => Rabs (snd z)) row) in Ok (Rmax a b).
Definition broadcast {A B} (a : list A) (b : list B) : result (list (A * B)) :=
  match a, b with
  | _, [y] => Ok (map (fun x => (x, y)) a)
  | [x], _ => Ok (map (fun y => (x, y)) b)
  | _, _ => if (length a =? length b)%nat then Ok (combine a b) else Err ValueError
  end.
Definition rescale_row (row : list C) (swing : R) : result (list (option C)) :=
  let! m := row_peak row in Ok (map (option_map (Cscal swing)) (cdiv_row m row)).
Definition rescale_signal (E : ndarray) (swing : list R) : result (list (list (option C))) :=
  match E with
  | D1 _ => Err IndexError
  | D2 rows =>
      (* all scale factors are computed before the broadcast *)
      let! _ := mapM row_peak rows in
      let! ps := broadcast rows swing in mapM (fun p => rescale_row (fst p) (snd p)) ps
  end.
