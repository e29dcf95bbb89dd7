(** helpers.py 26-28, 110-127 and signals.py 549-568: rescaling about a mid-position, the centring shift and
    the normalisation of a signal object. *)
From Coq Require Import List ZArith Arith Bool Reals.
From Verif Require Import Common.Py Common.Cplx Model.Constellation Model.Helpers Model.Quality.
Import ListNotations.
Local Open Scope R_scope.

(** helpers.py 110-117 of a complex array.  set_mid_point takes the extreme values over all modes. *)
Definition set_mid_and_resale (E : ndarray) (mid_pos : C) (swing : list R) : result (list (list (option C))) :=
  match E with
  | D1 row => let! s := set_mid_point row mid_pos in rescale_signal (D1 s) swing
  | D2 rows => let! s := set_mid_point (concat rows) mid_pos in rescale_signal (D2 (chunks (length (hd [] rows)) s)) swing
  end.

(** helpers.py 119-127: one value per mode of a two-dimensional array, one value otherwise; the mean of
    an empty array (nan) is [None] *)
Definition shift_row (row : list C) : option C := match row with [] => None | _ => Some (Copp (Cmean row)) end.
Definition get_center_shift_fac (E : ndarray) : list (option C) :=
  match E with D1 row => [shift_row row] | D2 rows => map shift_row rows end.

(** signals.py 549-568 with symbol_based=True: the new content of the array; [None] is nan or inf *)
Definition symbol_normalise (mp : mapping) (symbols sig : list (list C)) (synced : bool) : result (list (list (option C))) :=
  let c := map center_row sig in
  let! p := est_snr mp symbols c synced in
  Ok (map (fun q => match snd q with
                    | Some (s0, _) => cdiv_row (sqrt s0) (fst q)
                    | None => map (fun _ => None) (fst q)
                    end) (combine c p)).
(** symbol_based=False *)
Definition plain_normalise (sig : list (list C)) : list (list (option C)) := normalise_and_center sig.
