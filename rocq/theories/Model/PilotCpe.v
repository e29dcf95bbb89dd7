(** Carrier phase estimation from periodic pilots, core/pilotbased_receiver.py 167-256. *)
From Coq Require Import List Arith ZArith Bool Reals.
From Verif Require Import Common.Py Common.Cplx Model.Windows Model.Quality Model.Sync Model.Phase.
Import ListNotations.
Local Open Scope R_scope.

(** elementwise product of two arrays: as many rows, or one row against several *)
Definition broadcast_rows {A B} (a : list A) (b : list B) : result (list (A * B)) :=
  if (length a =? length b)%nat then Ok (combine a b) else
  match a, b with
  | [x], _ => Ok (map (pair x) b)
  | _, [y] => Ok (map (fun x => (x, y)) a)
  | _, _ => Err ValueError
  end.
(** lines 195-202: whole blocks in L symbols, at most max_num_blocks, rounded down to a multiple of use_pilot_ratio *)
Definition cpe_blocks (L bl u : nat) (mb : option nat) : nat :=
  let b := (L / bl)%nat in
  let b := match mb with Some m => if (m <? b)%nat then m else b | None => b end in
  (b - b mod u)%nat.
(** lines 238-245 for one row: the averages, the unaveraged phases before them, the last average repeated after them *)
Definition cpe_phases (N : nat) (base avg : list R) : list R :=
  let h := ((N - 1) / 2)%nat in firstn h base ++ avg ++ repeat (last avg 0) h.
(** np.delete(row, arange(0, len, bl)) *)
Fixpoint drop_every {A} (bl i : nat) (l : list A) : list A :=
  match l with
  | [] => []
  | a :: l' => if (i mod bl =? 0)%nat then drop_every bl (S i) l' else a :: drop_every bl (S i) l'
  end.
(** lines 223-256: from the used pilots and the corresponding received ones to the result *)
Definition cpe_core (rec ps rp rs : list (list C)) (bl N u : nat) (remove : bool) : result (list (list C) * list (list R)) :=
  if (row_len ps <=? N)%nat then Err ValueError else
  let N := if Nat.odd N then N else S N in
  let! prs := broadcast_rows ps rp in
  let base := map (fun p => unwrap (phase_diff (fst p) (snd p))) prs in
  let! avg := mapM (fun b => moving_average_real b N) base in
  (** pp2[:, -1].reshape(2,1) *)
  if negb (length avg =? 2)%nat then Err ValueError else
  let phases := map (fun p => cpe_phases N (fst p) (snd p)) (combine base avg) in
  let n := row_len phases in
  let pos := map (fun q => (q * (bl * u))%nat) (seq 0 n) in
  let! trace := mapM (fun l =>
      let! ph := getn phases l in
      let! tr := mapM (interp (combine pos ph)) (seq 0 (n * bl * u)) in
      if (length tr =? row_len rs)%nat then Ok tr else Err ValueError) (seq 0 (length rec)) in
  let! out := rotate_rows rs (map (map Ropp) trace) in
  Ok (if remove then map (drop_every bl 0) out else out, trace).
(** lines 167-256.  A block length of zero divides by zero; a pilot ratio of zero gives a NaN number of blocks
    (or an integer modulo zero after the limit was applied).  The rows of each array have one length. *)
Definition pilot_based_cpe (rec pilots : list (list C)) (bl N u : nat) (mb : option nat) (remove : bool)
  : result (list (list C) * list (list R)) :=
  if (bl =? 0)%nat then Err ZeroDivisionError else
  if (u =? 0)%nat then Err (match mb with Some m => if (m <? row_len rec / bl)%nat then ZeroDivisionError else ValueError | None => ValueError end) else
  let nb := cpe_blocks (row_len rec) bl u mb in
  let rp := map (fun r => firstn nb (stride bl r)) rec in
  let rs := map (firstn (bl * nb)) rec in
  let nref := row_len pilots in
  let '(rs, rp, ps) := if (nref <? nb)%nat then (map (firstn (nref * bl)) rs, map (firstn nref) rp, pilots)
                       else (rs, rp, map (firstn nb) pilots) in
  if (row_len ps <=? u)%nat then Err ValueError else
  cpe_core rec (map (stride u) ps) (map (stride u) rp) rs bl N u remove.
(** lines 75-165: the assignments to numBlocks inside the function make the name local; its first use raises
    (the argument has a method extract_pilots) *)
Definition pilot_based_cpe2 (rec pilots : list (list C)) (N u : nat) : result (list (list C) * list (list R)) := Err UnboundLocalError.
