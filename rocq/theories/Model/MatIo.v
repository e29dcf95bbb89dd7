(** Loading arrays from MATLAB files: core/io.py 65-122 and io.py 28-76.
    A file is the list of its (name, array) pairs, as scipy's loadmat returns it: every array has two
    dimensions and is a list of rows of equal length.  Arrays without rows are not distinguished by
    their number of columns.  Port numbers are non-negative. *)
From Coq Require Import String List ZArith Bool Arith Reals.
From Verif Require Import Common.Py Common.Cplx Model.Helpers Model.Sync Model.SignalFrom Model.Transmitter.
Import ListNotations.

Definition matfile := list (string * list (list C)).
Fixpoint mat_get (file : matfile) (k : string) : result (list (list C)) :=
  match file with
  | [] => Err KeyError
  | (k', a) :: file' => if String.eqb k k' then Ok a else mat_get file' k
  end.

(** re + 1j*im with broadcasting, of vectors and of two-dimensional arrays *)
Definition cplx1 (re im : list C) : result (list C) :=
  let! ps := broadcast re im in Ok (map (fun p => (fst p + Ci * snd p)%C) ps).
Definition cplx2 (re im : list (list C)) : result (list (list C)) :=
  let! ps := broadcast re im in mapM (fun p => cplx1 (fst p) (snd p)) ps.
(** np.transpose of a two-dimensional array *)
Definition transpose (a : list (list C)) : list (list C) :=
  map (fun j => map (fun row => nth j row C0) a) (seq 0 (row_len a)).

(** core/io.py 98-106: a single entry in keys *)
Definition one_entry (file : matfile) (ks : list string) (tr : bool) : result (list (list C)) :=
  let! symbs :=
    match ks with
    | [re; im] => let! a := mat_get file re in let! b := mat_get file im in cplx2 a b
    | [k] => mat_get file k
    | _ => Err ValueError
    end in
  Ok (if tr then transpose symbs else symbs).

(** core/io.py 109-114: one turn of the loop; the format is that of keys[0] for all entries *)
Definition mode_row (file : matfile) (fmt : nat) (ks : list string) : result (list C) :=
  match fmt with
  | 2 => let! re := getn ks 0 in let! a := mat_get file re in
         let! im := getn ks 1 in let! b := mat_get file im in cplx1 (concat a) (concat b)
  | 1 => let! k := getn ks 0 in let! a := mat_get file k in Ok (concat a)
  | _ => Err ValueError
  end.
(** lines 108-118, np.vstack needs rows of one length *)
Fixpoint stack_rows (file : matfile) (fmt : nat) (keys : list (list string)) (acc : list (list C))
  : result (list (list C)) :=
  match keys with
  | [] => Ok acc
  | ks :: keys' =>
      let! out := mode_row file fmt ks in
      match acc with
      | [] => stack_rows file fmt keys' [out]
      | r :: _ => if (length r =? length out)%nat then stack_rows file fmt keys' (acc ++ [out]) else Err ValueError
      end
  end.
(** lines 119-123 *)
Definition ports (symbs : list (list C)) (portmap : list (nat * nat)) : result (list (list C)) :=
  mapM (fun p => let! a := getn symbs (fst p) in let! b := getn symbs (snd p) in cplx1 a b) portmap.

(** core/io.py 65-124.  Without keys the name symbs is unbound. *)
Definition ndarray_from_matlab (file : matfile) (keys : list (list string)) (tr dim2cmplx : bool)
    (portmap : list (nat * nat)) : result (list (list C)) :=
  let! symbs :=
    match keys with
    | [] => Err UnboundLocalError
    | [ks] => one_entry file ks tr
    | ks0 :: _ => stack_rows file (length ks0) keys []
    end in
  if dim2cmplx then ports symbs portmap else Ok symbs.

(** np.roll of a two-dimensional array without axis: the flattened array is rolled *)
Definition roll_flat (k : Z) (a : list (list C)) : list (list C) :=
  match row_len a with O => a | w => chunks w (roll k (concat a)) end.

(** io.py 28-76, load_symbols_from_matlab_file with M = 2^nbits.  [None]: a mode had power zero, so
    the symbols are nan (what from_symbol_array makes of these is not modelled). *)
Definition load_symbols_from_matlab_file (file : matfile) (nbits : nat) (keys : list (list string))
    (fake_polmux : bool) (fake_pm_delay : Z) (normalise tr dim2cmplx : bool) (portmap : list (nat * nat))
  : result (option signal) :=
  let! symbs := ndarray_from_matlab file keys tr dim2cmplx portmap in
  let symbs := if fake_polmux then roll_flat fake_pm_delay symbs ++ symbs else symbs in
  match (if normalise then no_nan (normalise_and_center symbs) else Some symbs) with
  | None => Ok None
  | Some symbs => let! s := from_symbol_array nbits symbs in Ok (Some s)
  end.
