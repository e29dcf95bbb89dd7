(** Windows over one-dimensional arrays: core/segmentaxis.py, core/utils.py rolling_window,
    core/filter.py moving_average, helpers.py dump_edges and find_pilot_idx. *)
From Coq Require Import List ZArith Arith Bool Reals.
From Verif Require Import Common.Py Common.Cplx.
Import ListNotations.

(** ** segmentaxis.py 26-120, segment_axis of a one-dimensional array (axis=None).
    The strided view of lines 100-120 is the list of its rows; [end] other than the three names
    leaves the array as it is. *)
Inductive end_mode := Cut | Pad | Wrap | OtherEnd.
Definition segment_axis {A} (a : list A) (len overlap : Z) (em : end_mode) (endvalue : A) : result (list (list A)) :=
  let l := Z.of_nat (length a) in
  if (len <=? overlap)%Z then Err ValueError else
  if ((overlap <? 0) || (len <=? 0))%Z then Err ValueError else
  let hop := (len - overlap)%Z in
  (* lines 66-96; b[..., l:] = v raises unless v has the right length or length one *)
  let! a' :=
    (if ((l <? len) || negb ((l - len) mod hop =? 0))%Z then
       let roundup := if (len <? l)%Z then (len + (1 + (l - len) / hop) * hop)%Z else len in
       let rounddown := if (len <? l)%Z then (len + (l - len) / hop * hop)%Z else 0%Z in
       if negb ((rounddown <? l) && (l <? roundup))%Z then Err AssertionError else
       if negb ((roundup =? rounddown + hop) || ((roundup =? len) && (rounddown =? 0)))%Z then Err AssertionError else
       match em with
       | Cut => Ok (pyslice_to rounddown a)
       | Pad => Ok (a ++ repeat endvalue (Z.to_nat (roundup - l)))
       | Wrap =>
           let v := pyslice_to (roundup - l) a in
           if (Z.of_nat (length v) =? roundup - l)%Z then Ok (a ++ v)
           else match v with [x] => Ok (a ++ repeat x (Z.to_nat (roundup - l))) | _ => Err ValueError end
       | OtherEnd => Ok a
       end
     else Ok a) in
  let l := Z.of_nat (length a') in
  if (l =? 0)%Z then Err ValueError else
  if (l <? len)%Z then Err AssertionError else
  if negb ((l - len) mod hop =? 0)%Z then Err AssertionError else
  let n := (1 + (l - len) / hop)%Z in
  Ok (map (fun i => pyslice (Z.of_nat i * hop) (Z.of_nat i * hop + len) a') (seq 0 (Z.to_nat n))).

(** ** utils.py 156-192, rolling_window of a one-dimensional array.  The strided view may reach
    beyond the buffer: such an element is [None].  A negative shape is a ValueError. *)
Definition rolling_window {A} (data : list A) (size : nat) (wrap : bool) : result (list (list (option A))) :=
  let buf := if wrap then data ++ pyslice_to (Z.of_nat size - 1) data else data in
  let rows := if wrap then Z.of_nat (length data) else (Z.of_nat (length data) - Z.of_nat size + 1)%Z in
  if (rows <? 0)%Z then Err ValueError
  else Ok (map (fun i => map (fun j => nth_error buf (i + j)) (seq 0 size)) (seq 0 (Z.to_nat rows))).

(** ** filter.py 215-237, moving_average of one row: cumulative sum with a leading zero, difference
    of two slices, division by N *)
Fixpoint cumsum (acc : C) (l : list C) : list C :=
  match l with [] => [] | x :: l' => let s := (acc + x)%C in s :: cumsum s l' end.
Definition moving_average (sig : list C) (N : Z) : result (list C) :=
  let ret := cumsum C0 (C0 :: sig) in
  let hi := pyslice_from N ret in
  let lo := pyslice_to (- N) ret in
  if length hi =? length lo
  then Ok (map (fun p => Cscal (/ IZR N) (fst p - snd p)%C) (combine hi lo)) else Err ValueError.

(** ** helpers.py 77-84, dump_edges of one row *)
Definition dump_edges {A} (e : list A) (n : Z) : list A := pyslice n (- n) e.

(** ** helpers.py 129-145, find_pilot_idx *)
Definition fpi_seq (frame_len os seq_len : Z) (i k : Z) : bool :=
  ((frame_len * os * i <=? k) && (k <? frame_len * os * i + seq_len * os))%Z.
Definition fpi_ph (frame_len os seq_len rat : Z) (i k : Z) : bool :=
  (let d := k - seq_len * os - frame_len * os * i in
   ((d mod (rat * os) =? 0) || (d mod (rat * os) =? 1)) && (0 <=? d) && (k <? frame_len * os * i + frame_len * os))%Z.
Definition find_pilot_idx (nframe frame_len os : nat) (seq_len rat : Z) : list bool :=
  let idx := map Z.of_nat (seq 0 (frame_len * nframe * os)) in
  let frames := map Z.of_nat (seq 0 nframe) in
  let fl := Z.of_nat frame_len in let o := Z.of_nat os in
  map (fun k => fold_left (fun b i => b || fpi_seq fl o seq_len i k) frames (k <? 0)%Z
             || fold_left (fun b i => b || fpi_ph fl o seq_len rat i k) frames (k <? 0)%Z) idx.
