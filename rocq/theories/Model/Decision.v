(** Hard decisions.
    core/equalisation/pythran_equalisation.py 233-334, signals.py 847-870, 907-930. *)
From Coq Require Import List NArith Arith Bool Reals.
From Verif Require Import Common.Py Common.Cplx Model.Gray Model.Constellation.
Import ListNotations.
Local Open Scope R_scope.

(** np.argmin: index of the first smallest entry; an empty array is a ValueError *)
Fixpoint argmin_from (best : R) (bi i : nat) (l : list R) : nat :=
  match l with
  | [] => bi
  | d :: l' => if Rlt_dec d best then argmin_from d i (S i) l' else argmin_from best bi (S i) l'
  end.
Definition argmin (l : list R) : result nat :=
  match l with [] => Err ValueError | d :: l' => Ok (argmin_from d 0 1 l') end.

(** pythran_equalisation.py 233-236 *)
Definition det_symbol_argmin (x : C) (symbs : list C) : result (C * R * nat) :=
  let dist := map (fun s => Cabs (x - s)%C) symbs in
  let! idx := argmin dist in
  let! s := getn symbs idx in
  let! d := getn dist idx in
  Ok (s, d, idx).

(** pythran_equalisation.py 240-265: running minimum that starts from d0 = 1000, s = 1 *)
Fixpoint det_symbol_loop (x : C) (symbs : list C) (s : C) (d0 : R) : C * R :=
  match symbs with
  | [] => (s, d0)
  | t :: l => let d := Cabs (x - t)%C ^ 2 in
              if Rlt_dec d d0 then det_symbol_loop x l t d else det_symbol_loop x l s d0
  end.
Definition det_symbol (x : C) (symbs : list C) : C * R := det_symbol_loop x symbs C1 1000.

(** pythran_equalisation.py 306-334 (make_decision); core/signal_quality.py 46-74 with the
    default method passes through.  Result: decided symbols, distances, indices. *)
Definition make_decision (e : list C) (symbols : list C) : result (list (C * R * nat)) :=
  mapM (fun x => det_symbol_argmin x symbols) e.

(** signals.py 847-870: the index array has dtype uint16, storing an index reduces it mod 2^16.
    Result per mode: decided symbols and stored indices. *)
Definition uint16 (i : nat) : nat := N.to_nat (N.of_nat i mod 65536).
Definition signal_make_decision (mp : mapping) (sig : list (list C)) : result (list (list (C * R * nat))) :=
  mapM (fun row => let! r := make_decision row (coded_symbols mp) in
                   Ok (map (fun t => (fst t, uint16 (snd t))) r)) sig.

(** signals.py 907-930, demodulate of a complex array *)
Definition demodulate (mp : mapping) (sig : list (list C)) : result (list (list bool)) :=
  let! dec := signal_make_decision mp sig in
  mapM (fun row => demodulate_idx (encoding mp) (map snd row)) dec.

(** signals.py 890-905, modulate *)
Definition modulate (mp : mapping) (data : list (list bool)) : result (list (list C)) :=
  modulate_arr (coded_symbols mp) data.
