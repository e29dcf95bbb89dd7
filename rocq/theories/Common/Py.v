(** Python / numpy primitives used by the model.

    One-dimensional arrays are lists, (modes, N) arrays are lists of rows.
    Calls that raise in Python return [Err].  These definitions fix the meaning
    given to numpy calls; lemmas about them are in [Common/ListX.v]. *)
From Coq Require Import List ZArith NArith Bool Arith.
Import ListNotations.

(** Exceptions that occur in the modelled functions. *)
Inductive exn :=
| ValueError | IndexError | TypeError | AssertionError | NameError
| UnboundLocalError | KeyError | AttributeError | ZeroDivisionError
| NotImplementedError | UserWarning | UnicodeError
| DataSyncError | IOError | OverflowError | RecursionError.

Inductive result (A : Type) := Ok (a : A) | Err (e : exn).
Arguments Ok {A} a.
Arguments Err {A} e.

Definition bind {A B} (r : result A) (f : A -> result B) : result B :=
  match r with Ok a => f a | Err e => Err e end.
Declare Scope py_scope.
Delimit Scope py_scope with py.
Notation "'let!' x := r 'in' k" := (bind r (fun x => k))
  (at level 200, x pattern, r at level 100, k at level 200, right associativity) : py_scope.
Open Scope py_scope.

(** run a list of fallible computations left to right *)
Fixpoint mapM {A B} (f : A -> result B) (l : list A) : result (list B) :=
  match l with
  | [] => Ok []
  | a :: l' => let! b := f a in let! bs := mapM f l' in Ok (b :: bs)
  end.

(** l[i] with a non-negative index *)
Definition getn {A} (l : list A) (i : nat) : result A :=
  match nth_error l i with Some a => Ok a | None => Err IndexError end.

(** l[i] for a Python integer (negative indices count from the end) *)
Definition getz {A} (l : list A) (i : Z) : result A :=
  let n := Z.of_nat (length l) in
  if (0 <=? i)%Z then getn l (Z.to_nat i)
  else if (- n <=? i)%Z then getn l (Z.to_nat (i + n)) else Err IndexError.

(** slice bound: negative values count from the end, everything is clipped *)
Definition clipz (n i : Z) : Z :=
  let j := if (i <? 0)%Z then (i + n)%Z else i in
  Z.max 0 (Z.min n j).

(** l[lo:hi] *)
Definition pyslice {A} (lo hi : Z) (l : list A) : list A :=
  let n := Z.of_nat (length l) in
  let a := clipz n lo in
  let b := clipz n hi in
  firstn (Z.to_nat (b - a)) (skipn (Z.to_nat a) l).

(** l[lo:] *)
Definition pyslice_from {A} (lo : Z) (l : list A) : list A :=
  skipn (Z.to_nat (clipz (Z.of_nat (length l)) lo)) l.

(** l[:hi] *)
Definition pyslice_to {A} (hi : Z) (l : list A) : list A :=
  firstn (Z.to_nat (clipz (Z.of_nat (length l)) hi)) l.

(** np.roll(l, k) *)
Definition roll {A} (k : Z) (l : list A) : list A :=
  let s := Z.to_nat ((- k) mod Z.of_nat (length l)) in
  skipn s l ++ firstn s l.

(** np.tile(l, n) along the last axis (n >= 0) *)
Definition tile {A} (n : nat) (l : list A) : list A := concat (repeat l n).

(** l[mask] with a boolean mask of the same length *)
Fixpoint mask_sel {A} (m : list bool) (l : list A) : list A :=
  match m, l with
  | true :: m', a :: l' => a :: mask_sel m' l'
  | false :: m', _ :: l' => mask_sel m' l'
  | _, _ => []
  end.
Definition mask_get {A} (m : list bool) (l : list A) : result (list A) :=
  if length m =? length l then Ok (mask_sel m l) else Err IndexError.

(** number of True entries, np.count_nonzero of a boolean mask *)
Fixpoint count_true (m : list bool) : nat :=
  match m with [] => 0 | true :: m' => S (count_true m') | false :: m' => count_true m' end.

(** l[mask] = vals *)
Fixpoint mask_put {A} (m : list bool) (vals l : list A) : list A :=
  match m, l with
  | true :: m', a :: l' =>
      match vals with v :: vs => v :: mask_put m' vs l' | [] => a :: mask_put m' [] l' end
  | false :: m', a :: l' => a :: mask_put m' vals l'
  | _, _ => l
  end.
Definition mask_set {A} (m : list bool) (vals l : list A) : result (list A) :=
  if negb (length m =? length l) then Err IndexError
  else if negb (count_true m =? length vals) then Err ValueError
  else Ok (mask_put m vals l).

(** l[[i0,i1,...]] with non-negative integer indices *)
Definition fancy_get {A} (idx : list nat) (l : list A) : result (list A) := mapM (getn l) idx.

(** l[i] = v *)
Fixpoint upd {A} (i : nat) (v : A) (l : list A) : list A :=
  match l, i with
  | [], _ => []
  | _ :: l', 0 => v :: l'
  | a :: l', S i' => a :: upd i' v l'
  end.
Definition setn {A} (i : nat) (v : A) (l : list A) : result (list A) :=
  if i <? length l then Ok (upd i v l) else Err IndexError.

(** np.nonzero(mask)[0] *)
Fixpoint nonzero_from (k : nat) (m : list bool) : list nat :=
  match m with
  | [] => []
  | true :: m' => k :: nonzero_from (S k) m'
  | false :: m' => nonzero_from (S k) m'
  end.
Definition nonzero (m : list bool) : list nat := nonzero_from 0 m.

(** l.reshape(-1, w) for w dividing the length *)
Fixpoint chunks_fuel {A} (fuel w : nat) (l : list A) : list (list A) :=
  match fuel with
  | 0 => []
  | S f => match l with [] => [] | _ => firstn w l :: chunks_fuel f w (skipn w l) end
  end.
Definition chunks {A} (w : nat) (l : list A) : list (list A) := chunks_fuel (length l) w l.
Definition reshape {A} (w : nat) (l : list A) : result (list (list A)) :=
  if (w =? 0) || negb (length l mod w =? 0) then Err ValueError else Ok (chunks w l).

(** flattened two-dimensional grid of np.mgrid[0:m, 0:n], first index slow *)
Definition grid {A} (m n : nat) (f : nat -> nat -> A) : list A :=
  flat_map (fun i => map (f i) (seq 0 n)) (seq 0 m).

(** l[::k] *)
Fixpoint stride_from {A} (k c : nat) (l : list A) : list A :=
  match l with
  | [] => []
  | a :: l' => match c with 0 => a :: stride_from k (k - 1) l' | S c' => stride_from k c' l' end
  end.
Definition stride {A} (k : nat) (l : list A) : list A := stride_from k 0 l.
