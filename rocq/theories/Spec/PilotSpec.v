(** Vocabulary for the pilot-based receiver. *)
From Coq Require Import List ZArith Arith Bool Reals.
From Verif Require Import Common.Py Common.Cplx Spec.Seq Spec.Equal.
Import ListNotations.

(** half of the taps that are used in addition to those of the synchronisation *)
Definition extra (ntaps synctaps : nat) : Z := ((Z.of_nat ntaps - Z.of_nat synctaps) / 2)%Z.
(** the first sample of frame 0 of mode m; one frame later if some mode would start before the
    first sample *)
Definition frame_start (shifts : list Z) (ntaps synctaps os fl m : nat) : Z :=
  (nth m shifts 0 - extra ntaps synctaps +
   if existsb (fun s => s <? extra ntaps synctaps) shifts then Z.of_nat (os * fl) else 0)%Z.
(** frame f of mode m with all samples the filter needs lies in a signal of L samples *)
Definition frame_in (L ntaps os fl : nat) (start f : Z) : Prop :=
  (0 <= f /\ 0 <= start /\ start + (f + 1) * Z.of_nat (os * fl) + Z.of_nat ntaps - 1 < Z.of_nat L)%Z.

(** samples s ... s+n-1 of every mode agree *)
Definition agree_on {A} (rows rows' : list (list A)) (s n : nat) : Prop :=
  Forall2 (fun r r' => window r s n = window r' s n) rows rows'.
(** the rows without their first d samples *)
Definition drop {A} (d : nat) (rows : list (list A)) : list (list A) := map (skipn d) rows.

(** all samples have modulus 1 *)
Definition unit_modulus (l : list C) : Prop := Forall (fun z => Cnorm2 z = 1%R) l.
(** the sequence y occurs in x exactly once up to a common phase, at position p, turned by q quarters *)
Definition found_once (x y : list C) (p : Z) (q : nat) : Prop :=
  occurs_at x y p (quarter q) /\ forall d u, Cnorm2 u = 1%R -> occurs_at x y d u -> d = p.
Definition absent (x y : list C) : Prop := forall d u, Cnorm2 u = 1%R -> ~ occurs_at x y d u.
(** decibel of a power ratio *)
Definition to_db (x : R) : R := (10 * (ln x / ln 10))%R.

(** n symbols of every mode after filtering with the taps, from sample s on *)
Definition equalised (rx : list (list C)) (wx : list (list (list C))) (ntaps os s n : nat) : list (list C) :=
  map (fun m => map (fun i => fir rx (nth m wx []) ntaps (s + i * os)) (seq 0 n)) (seq 0 (length rx)).
(** a frequency offset of f cycles per symbol removed *)
Definition without_offset (f : R) (row : list C) : list C :=
  map (fun i => (nth i row C0 * Cexpi (- (2 * PI * INR (i + 1) * f)))%C) (seq 0 (length row)).
(** v i is the first smallest of v lo ... v (hi-1) *)
Definition first_smallest (v : nat -> R) (lo hi i : nat) : Prop :=
  lo <= i < hi /\ (forall j, lo <= j < hi -> (v i <= v j)%R) /\ (forall j, lo <= j < i -> (v i < v j)%R).

(** An outcome of the search for the pilot sequences: windows of one pilot sequence, half of one
    apart; tr i are the taps and variances trained on window i; mode l has the smallest variance in
    window idx l.  The modes filtered with the taps of that window, from one pilot sequence before
    the window on, and cleaned of the frequency offset, are symbols of modulus 1 that contain the
    pilot sequence pil l once, at position pos l and turned by qrt l quarters, and none of the others. *)
Definition search_finds (train : list (list C) -> result (list (list (list C)) * list R)) (find_fo : list (list C) -> result (list R))
  (rx ref : list (list C)) (os fl nt P : nat) (tr : nat -> list (list (list C)) * list R) (fo : nat -> list R)
  (pil : nat -> nat) (pos : nat -> Z) (qrt idx : nat -> nat) : Prop :=
  let p := length rx in let w := P * os in let st := P * os / 2 in let ns := fl * os / st + 1 in
  (forall i, 2 <= i < ns -> train (map (fun r => window r (i * st) w) rx) = Ok (tr i) /\
                            shape3 (fst (tr i)) p p nt /\ length (snd (tr i)) = p) /\
  (forall l, l < p -> let v i := nth l (snd (tr i)) 0%R in
     first_smallest v 2 ns (idx l) /\ (v (idx l) < 100)%R /\ w <= idx l * st) /\
  (forall l, l < p ->
     let eq := equalised rx (fst (tr (idx l))) nt os (idx l * st - w) ((2 * w - nt + 1) / os) in
     find_fo eq = Ok (fo l) /\ length (fo l) = p /\
     let sy := without_offset (nth l (fo l) 0%R) (nth l eq []) in
     sy <> [] /\ unit_modulus sy /\ qrt l < 4 /\ pil l < p /\ found_once sy (nth (pil l) ref []) (pos l) (qrt l) /\
     (forall q, q < p -> q <> pil l -> absent sy (nth q ref []))) /\
  NoDup (map pil (seq 0 p)).
(** the shift factor that belongs to it: the sample at which the pilot sequence starts *)
Definition found_shift (os P : nat) (pos : nat -> Z) (idx : nat -> nat) (l : nat) : Z :=
  (Z.of_nat (idx l * (P * os / 2)) + Z.of_nat os * pos l - Z.of_nat (P * os))%Z.
