(** Synchronisation: core/ber_functions.py, core/utils.py 128-153, signals.py 245-292. *)
From Coq Require Import List ZArith NArith Arith Bool Reals.
From Verif Require Import Common.Py Common.Cplx Model.Decision.
Import ListNotations.

(** ** length adjustment *)
(** ber_functions.py 308-320.  np.hstack of an empty list raises ValueError, caught, giving an
    empty array; data[-rem:] with rem = 0 is data[0:].  An empty array is a ZeroDivisionError. *)
Definition adjust_to {A} (data : list A) (n : Z) (back : bool) : result (list A) :=
  let l := Z.of_nat (length data) in
  if (l =? 0)%Z then Err ZeroDivisionError else
  let k := (n / l)%Z in
  let rem := (n mod l)%Z in
  let tmp := tile (Z.to_nat k) data in
  Ok (if back then tmp ++ pyslice_to rem data else pyslice_from (- rem) data ++ tmp).

Inductive adj_method := MethodNone | Truncate | Extend.

(** the "extend" and None branches, lines 271-278 and 288-306: [short] is lengthened to [n] *)
Definition extend_none {A} (short : list A) (n offset : Z) : result (list A) :=
  if (offset =? 0)%Z then adjust_to short n true else
  let! a := adjust_to short offset false in
  let! b := adjust_to short (n - offset) true in
  Ok (a ++ b).
Definition extend_arr {A} (short : list A) (n offset : Z) : result (list A) :=
  if (offset =? 0)%Z then adjust_to short n true else
  let! a := adjust_to short offset false in
  let! b := adjust_to short (n - Z.of_nat (length a)) true in
  Ok (a ++ b).

(** ber_functions.py 243-306.  Any other method string returns None (not modelled). *)
Definition adjust_data_length {A} (tx rx : list A) (m : adj_method) (offset : Z) : result (list A * list A) :=
  let nt := length tx in let nr := length rx in
  match m with
  | MethodNone =>
      if nr <? nt then Ok (firstn nr tx, rx)
      else if nt <? nr then let! t := extend_none tx (Z.of_nat nr) offset in Ok (t, rx)
      else Ok (tx, rx)
  | Truncate =>
      if nr <? nt then Ok (firstn nr tx, rx)
      else if nt <? nr then Ok (tx, firstn nt rx)
      else Ok (tx, rx)
  | Extend =>
      if nr <? nt then let! r := extend_arr rx (Z.of_nat nt) offset in Ok (tx, r)
      else if nt <? nr then let! t := extend_arr tx (Z.of_nat nr) offset in Ok (t, rx)
      else Ok (tx, rx)
  end.

(** ** correlation *)
Local Open Scope R_scope.
(** scipy.signal.fftconvolve(a, b, 'full'): the linear convolution, length Na+Nb-1, empty if one
    input is empty.  Exact arithmetic; the FFT is not modelled. *)
Definition conv_at (a b : list C) (m : nat) : C :=
  Csum (map (fun n => (nth n a C0 * (if (n <=? m)%nat then nth (m - n) b C0 else C0))%C) (seq 0 (length a))).
Definition convolve_full (a b : list C) : list C :=
  match a, b with
  | [], _ | _, [] => []
  | _, _ => map (conv_at a b) (seq 0 (length a + length b - 1))
  end.

(** np.argmax of a real array: first largest entry, ValueError when empty *)
Definition argmax (l : list R) : result nat := argmin (map Ropp l).

(** ber_functions.py 33-72.  For real arrays conj changes nothing, so one definition serves both
    branches.  Returns the lag and the cross-correlation. *)
Definition find_sequence_offset (x y : list C) : result (Z * list C) :=
  let ac := convolve_full x (rev (map Cconj y)) in
  let! i := argmax (map Cabs ac) in
  Ok ((Z.of_nat i - (Z.of_nat (length y) - 1))%Z, ac).

(** 1.j ** i *)
Fixpoint Cpow (z : C) (n : nat) : C := match n with O => C1 | S n' => (z * Cpow z n')%C end.
Definition rmax (l : list R) : result R :=
  match l with [] => Err ValueError | a :: l' => Ok (fold_left Rmax l' a) end.

(** ber_functions.py 96-106: the loop over the four rotations.  [best] is (ix, ii), acm starts at 0;
    using ix, ii without assignment is an UnboundLocalError. *)
Fixpoint offset_loop (x y : list C) (rots : list nat) (best : option (Z * nat)) (acm : R)
  : result (option (Z * nat) * R) :=
  match rots with
  | [] => Ok (best, acm)
  | i :: rest =>
      let rx := map (fun s => (s * Cpow Ci i)%C) y in
      let! r := find_sequence_offset x rx in
      let! act := rmax (map fst (snd r)) in
      if Rlt_dec acm act then offset_loop x y rest (Some (fst r, i)) act
      else offset_loop x y rest best acm
  end.
(** ber_functions.py 74-106 for arrays of which at least one is complex *)
Definition find_sequence_offset_complex (x y : list C) : result (Z * list C * nat * R) :=
  let! r := offset_loop x y [0; 1; 2; 3]%nat None 0 in
  match r with
  | (None, _) => Err UnboundLocalError
  | (Some (ix, ii), acm) => Ok (ix, map (fun s => (s * Cpow Ci ii)%C) y, ii, acm)
  end.

(** ** sync_and_adjust, ber_functions.py 108-161 *)
Inductive adjust_which := AdjTx | AdjRx.
Definition sync_and_adjust (tx rx : list C) (adj : adjust_which) : result (list C * list C * R) :=
  let nt := length tx in let nr := length rx in
  match adj with
  | AdjTx =>
      let! f := find_sequence_offset_complex rx tx in
      let '(offset, t, _, acm) := f in
      if (nr <? nt)%nat then
        let! p := adjust_data_length (roll offset t) rx Truncate 0 in Ok (p, acm)
      else if (nt <? nr)%nat then
        let! p := adjust_data_length t rx Extend offset in Ok (p, acm)
      else Ok ((roll offset t, rx), acm)
  | AdjRx =>
      let! f := find_sequence_offset_complex tx rx in
      let '(offset, r, _, acm) := f in
      if (nr <? nt)%nat then
        let! p := adjust_data_length tx r Extend offset in Ok (p, acm)
      else if (nt <? nr)%nat then
        let! p := adjust_data_length tx (roll offset r) Truncate 0 in Ok (p, acm)
      else Ok ((tx, roll offset r), acm)
  end.

(** ** search on bytes *)
(** bytes.index: first position at which [needle] occurs in [hay]; ValueError if it does not *)
Section Bytes.
Context {B : Type} (eqb : B -> B -> bool).
Fixpoint is_prefix (p l : list B) : bool :=
  match p, l with
  | [], _ => true
  | a :: p', b :: l' => eqb a b && is_prefix p' l'
  | _ :: _, [] => false
  end.
Fixpoint bytes_index (needle hay : list B) : result nat :=
  if is_prefix needle hay then Ok 0%nat
  else match hay with
       | [] => Err ValueError
       | _ :: h => let! i := bytes_index needle h in Ok (S i)
       end.
(** core/utils.py 128-153; [enc] is the in-memory byte representation of an element, [itemsize]
    bytes each.  Arrays of equal dtype (a different dtype raises Warning, line 148). *)
Definition find_offset {A} (itemsize : nat) (enc : A -> list B) (sequence data : list A) : result nat :=
  if (length sequence <? length data)%nat then
    let! i := bytes_index (concat (map enc sequence)) (concat (map enc data)) in
    Ok (i / itemsize)%nat
  else Err AssertionError.

(** ber_functions.py 163-241; position i is the start of the window tried. ValueError continues
    with the next window, other exceptions leave the loop. *)
Fixpoint sync_loop {A} (itemsize : nat) (enc : A -> list B) (tx rx : list A) (lsync : nat)
  (tries : nat) (t : nat) : result (Z * nat) :=
  match tries with
  | O => Err DataSyncError
  | S tries' =>
      let i := (t * lsync)%nat in
      match find_offset itemsize enc (firstn lsync (skipn i rx)) tx with
      | Ok idx => Ok ((Z.of_nat idx - Z.of_nat i)%Z, i)
      | Err ValueError => sync_loop itemsize enc tx rx lsync tries' (S t)
      | Err e => Err e
      end
  end.
Definition sync_rx2tx {A} itemsize (enc : A -> list B) (tx rx : list A) (lsync imax : nat) : result (Z * list A) :=
  let! r := sync_loop itemsize enc tx rx lsync imax 0 in
  Ok (fst r, roll (fst r) rx).
Definition sync_tx2rx {A} itemsize (enc : A -> list B) (tx rx : list A) (lsync imax : nat) : result (Z * list A) :=
  let! r := sync_loop itemsize enc tx rx lsync imax 0 in
  Ok (fst r, roll (- fst r) tx).
End Bytes.

(** ** per-mode synchronisation, signals.py 245-266 *)
(** best still-free transmit mode for one received mode; lines 254-263.  [acm] starts at -100. *)
Fixpoint best_mode (tx : list (list C)) (rx : list C) (idxx : list nat)
  (best : option (nat * (list C * list C))) (acm : R) : result (option (nat * (list C * list C))) :=
  match idxx with
  | [] => Ok best
  | i :: rest =>
      let! t := getn tx i in
      let! s := sync_and_adjust t rx AdjTx in
      if Rlt_dec acm (snd s) then best_mode tx rx rest (Some (i, fst s)) (snd s)
      else best_mode tx rx rest best acm
  end.
(** list.remove: drops the first occurrence *)
Fixpoint list_remove (i : nat) (l : list nat) : list nat :=
  match l with [] => [] | a :: l' => if (a =? i)%nat then l' else a :: list_remove i l' end.
(** Lines 254-266.  When nothing was found itmp, t_tmp, r_tmp still hold the values of the
    previous mode: idxx.remove then raises ValueError (already removed); for the first mode the
    names are unbound.  The transmit mode picked is returned too, for use in statements. *)
Fixpoint sync_modes (tx : list (list C)) (rx : list (list C)) (idxx : list nat) (first : bool)
  : result (list (nat * (list C * list C))) :=
  match rx with
  | [] => Ok []
  | r :: rx' =>
      let! b := best_mode tx r idxx None (-100) in
      match b with
      | None => Err (if first then UnboundLocalError else ValueError)
      | Some (i, p) =>
          let! rest := sync_modes tx rx' (list_remove i idxx) false in
          Ok ((i, p) :: rest)
      end
  end.

(** signals.py 268-292 with which="tx" (the only use) *)
Definition row_len {A} (m : list (list A)) : nat := match m with [] => 0%nat | r :: _ => length r end.
Definition adjust_only {A} (tx rx : list (list A)) : result (list (list A) * list (list A)) :=
  let tx := if (length rx <? length tx)%nat then firstn (length rx) tx else tx in
  if (length tx =? length rx)%nat && (row_len tx =? row_len rx)%nat then Ok (tx, rx) else
  let m := if (row_len rx <? row_len tx)%nat then Truncate else Extend in
  let! ps := mapM (fun i => let! t := getn tx i in let! r := getn rx i in adjust_data_length t r m 0)
                  (seq 0 (length tx)) in
  Ok (map fst ps, map snd ps).

(** signals.py 245-266 *)
Definition signal_sync_and_adjust (tx rx : list (list C)) (synced : bool)
  : result (list (list C) * list (list C)) :=
  if synced then adjust_only tx rx else
  let! ps := sync_modes tx rx (seq 0 (Nat.max (length tx) (length rx))) true in
  Ok (map (fun p => fst (snd p)) ps, map (fun p => snd (snd p)) ps).
