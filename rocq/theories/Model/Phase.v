(** Phase and frequency recovery: core/phaserecovery.py, core/pythran_dsp.py (blind phase search),
    core/pilotbased_receiver.py (pilot-based estimation), phaserec.py, and the phase impairments of
    core/impairments.py.  Numbers are real and complex numbers; two-dimensional arrays are lists of
    rows, a one-dimensional input is a single row (np.atleast_2d ... flatten). *)
From Coq Require Import String List ZArith Arith Bool Reals.
From Verif Require Import Common.Py Common.Cplx Common.Angle Model.Constellation Model.Decision
  Model.Windows Model.Sync Model.Pilots Model.Quality Model.Equaliser.
Import ListNotations.
Open Scope list_scope.
Local Open Scope R_scope.

(** ** numpy helpers *)
(** np.unwrap with the default discontinuity PI.  x mod y for y > 0 *)
Definition rmod (x y : R) : R := x - y * IZR (Int_part (x / y)).
Definition wrap_corr (dd : R) : R :=
  if Rlt_dec (Rabs dd) PI then 0
  else let m := rmod (dd + PI) (2 * PI) - PI in
       (if Req_EM_T m (- PI) then (if Rlt_dec 0 dd then PI else m) else m) - dd.
Fixpoint unwrap_from (prev corr : R) (l : list R) : list R :=
  match l with
  | [] => []
  | x :: l' => let c := corr + wrap_corr (x - prev) in (x + c) :: unwrap_from x c l'
  end.
Definition unwrap (l : list R) : list R :=
  match l with [] => [] | x :: l' => x :: unwrap_from x 0 l' end.

(** np.cumsum of reals *)
Fixpoint rcumsum (acc : R) (l : list R) : list R :=
  match l with [] => [] | x :: l' => (acc + x) :: rcumsum (acc + x) l' end.

(** np.interp for increasing sample positions: constant outside, linear in between *)
Fixpoint interp_from (x0 : nat) (f0 : R) (pts : list (nat * R)) (x : nat) : R :=
  match pts with
  | [] => f0
  | (x1, f1) :: r =>
      if (x <? x1)%nat then (f1 - f0) / (INR x1 - INR x0) * (INR x - INR x0) + f0
      else interp_from x1 f1 r x
  end.
Definition interp (pts : list (nat * R)) (x : nat) : result R :=
  match pts with
  | [] => Err ValueError
  | (x0, f0) :: r => Ok (if (x <? x0)%nat then f0 else interp_from x0 f0 r x)
  end.

(** sample * exp(1j*phase), row by row *)
Definition rotate_row (row : list C) (ph : list R) : result (list C) :=
  if (length row =? length ph)%nat
  then Ok (map (fun p => (fst p * Cexpi (snd p))%C) (combine row ph)) else Err ValueError.
Definition rotate_rows (E : list (list C)) (ph : list (list R)) : result (list (list C)) :=
  rowwise rotate_row E ph.

(** ** Blind phase search, compiled: core/pythran_dsp.py 47-85.
    The distance array starts at 100 and is only lowered; its element (i, j) is the squared
    distance found by det_symbol (lines 16-23, which starts at 1000). *)
Definition bps_dist (x : C) (symbs : list C) : R :=
  let d := snd (dsp_det_symbol x symbs) in if Rlt_dec d 100 then d else 100.
Definition bps_dists (E : list C) (testangles : list (list R)) (symbols : list C) : result (list (list R)) :=
  mapM (fun i => let! e := getn E i in
                 let! row := getn testangles (if (1 <? length testangles)%nat then i else 0%nat) in
                 Ok (map (fun a => bps_dist (e * Cexpi a)%C symbols) row)) (seq 0 (length E)).

(** core/pythran_dsp.py 26-42, select_angle_index.  [scan_angles] is the loop over k of the else
    branch with its running minimum; [csum] are the rows of the cumulative sum computed so far. *)
Fixpoint scan_angles (k : nat) (ds : list R) (pos : nat) (dmin : R) (idx : list nat) : result (list nat) :=
  match ds with
  | [] => Ok idx
  | d :: ds' =>
      if Rlt_dec d dmin then let! idx' := setn pos k idx in scan_angles (S k) ds' pos d idx'
      else scan_angles (S k) ds' pos dmin idx
  end.
Definition row_op (f : R -> R -> R) (a b : list R) : list R := map (fun p => f (fst p) (snd p)) (combine a b).
Fixpoint select_loop (N : nat) (xs : list (list R)) (i : nat) (csum : list (list R)) (idx : list nat) : result (list nat) :=
  match xs with
  | [] => Ok idx
  | x :: xs' =>
      let! prev := getn csum (i - 1) in
      let row := row_op Rplus prev x in
      let csum' := csum ++ [row] in
      let! idx' := (if (i <? N)%nat then Ok idx
                    else let! old := getn csum' (i - N) in
                         scan_angles 0 (row_op Rminus row old) (i - N / 2) 1000 idx) in
      select_loop N xs' (S i) csum' idx'
  end.
Definition select_angle_index (x : list (list R)) (N : nat) : result (list nat) :=
  match x with
  | [] => Ok []
  | x0 :: xs => select_loop N xs 1 [repeat 0 (length x0)] (repeat 0%nat (length x))
  end.
Definition bps_idx_pyt (E : list C) (testangles : list (list R)) (symbols : list C) (N : nat) : result (list nat) :=
  let! d := bps_dists E testangles symbols in select_angle_index d (2 * N).

(** ** Blind phase search in Python: core/phaserecovery.py 81-91.  Rows of a single-row array of
    test angles are broadcast; .min and .argmin of an empty axis raise ValueError. *)
Definition row_min (l : list R) : result R :=
  match l with [] => Err ValueError | a :: l' => Ok (fold_left Rmin l' a) end.
Fixpoint cumsum_rows (acc : list R) (l : list (list R)) : list (list R) :=
  match l with [] => [] | x :: l' => let s := row_op Rplus acc x in s :: cumsum_rows s l' end.
Definition bps_idx_py (E : list C) (testangles : list (list R)) (symbols : list C) (N : nat) : result (list nat) :=
  let L := length E in
  let! rows := (if (length testangles =? 1)%nat then
                  let! r := getn testangles 0 in Ok (repeat r L)
                else if (length testangles =? L)%nat then Ok testangles else Err ValueError) in
  let! dist := mapM (fun p => mapM (fun a => row_min (map (fun s => Cabs (fst p * Cexpi a - s)%C ^ 2) symbols)) (snd p))
                    (combine E rows) in
  let csum := match dist with [] => [] | d :: l => d :: cumsum_rows d l end in
  let hi := pyslice_from (2 * Z.of_nat N) csum in
  let lo := pyslice_to (- (2 * Z.of_nat N)) csum in
  let! mvg := (if (length hi =? length lo)%nat then Ok (map (fun p => row_op Rminus (fst p) (snd p)) (combine hi lo))
               else if (length hi =? 1)%nat then Ok [] else Err ValueError) in
  let! am := mapM argmin mvg in
  slice_assign (Z.of_nat N) (- Z.of_nat N) am (repeat 0%nat L).

(** core/pythran_dsp.py 137-153, select_angles *)
Definition select_angles (angles : list (list R)) (idx : list nat) : result (list R) :=
  if (1 <? length angles)%nat
  then mapM (fun i => let! row := getn angles i in let! k := getn idx i in getn row k) (seq 0 (length angles))
  else mapM (fun k => let! row := getn angles 0 in getn row k) idx.

(** np.linspace(-pi/4, pi/4, M, endpoint=False) *)
Definition test_angles (M : nat) : list R := map (fun k => - (PI / 4) + INR k * (PI / 2 / INR M)) (seq 0 M).

Local Open Scope string_scope.
(** core/phaserecovery.py 126-137: the cython routine is not imported (NameError), arrayfire is not
    available (RuntimeError in bps, modelled as NotImplementedError) *)
Definition bps_fct (method0 : string) : result (list C -> list (list R) -> list C -> nat -> result (list nat)) :=
  let method := lower method0 in
  if method =? "pyx" then Err NameError
  else if method =? "af" then Err NotImplementedError
  else if method =? "py" then Ok bps_idx_py
  else if method =? "pyt" then Ok bps_idx_pyt
  else Err ValueError.
Local Close Scope string_scope.

(** core/phaserecovery.py 92-158, bps: compensated rows and phase rows *)
Definition bps_phase (fct : list C -> list (list R) -> list C -> nat -> result (list nat))
           (M : nat) (symbols : list C) (N : nat) (row : list C) : result (list R) :=
  let! idx := fct row [test_angles M] symbols N in
  let! ph := select_angles [test_angles M] idx in
  let mid := pyslice (Z.of_nat N) (- Z.of_nat N) ph in
  slice_assign (Z.of_nat N) (- Z.of_nat N) (map (fun x => x / 4) (unwrap (map (fun x => x * 4) mid))) ph.
Definition core_bps (E : list (list C)) (M : nat) (symbols : list C) (N : nat) (method : string)
  : result (list (list C) * list (list R)) :=
  let! fct := bps_fct method in
  let! ph := mapM (bps_phase fct M symbols N) E in
  let! out := rotate_rows E ph in
  Ok (out, ph).

(** ** core/phaserecovery.py 40-78, viterbiviterbi.  Returns the rows and the phase estimate, which
    is the one of the last mode (None: no mode). *)
Definition vv_phase (row : list C) (N M : nat) : result (list R) :=
  let raised := map (fun e => Cpow (Cexpi (Carg e)) M) row in
  let! sa := segment_axis raised (Z.of_nat N) (Z.of_nat N - 1) Cut C0 in
  Ok (map (fun p => (p - PI) / INR M) (unwrap (map (fun w => Carg (Csum w)) sa))).
Definition vv_row (row : list C) (N M : nat) : result (list C * list R) :=
  let! pe := vv_phase row N M in
  let L := Z.of_nat (length row) in
  let lo := if Nat.odd N then ((Z.of_nat N - 1) / 2)%Z else (Z.of_nat N / 2 - 1)%Z in
  let hi := if Nat.odd N then (L - (Z.of_nat N - 1) / 2)%Z else (L - Z.of_nat N / 2)%Z in
  let! mid := rotate_row (pyslice lo hi row) (map Ropp pe) in
  let! out := slice_assign lo hi mid (repeat C0 (length row)) in
  Ok (out, pe).
Definition viterbiviterbi (E : list (list C)) (N M : nat) : result (list (list C) * option (list R)) :=
  let! r := mapM (fun row => vv_row row N M) E in
  Ok (map fst r, last (map (fun p => Some (snd p)) r) None).

(** ** core/phaserecovery.py 435-473, comp_freq_offset; one offset per mode *)
Definition comp_freq_offset (sig : list (list C)) (freq_offset : list R) (os : R) : result (list (list C)) :=
  mapM (fun l => let! row := getn sig l in
                 let! f := getn freq_offset l in
                 Ok (map (fun p => (snd p * Cexpi (- (2 * PI * INR (fst p) * f / os)))%C)
                         (combine (seq 1 (length row)) row))) (seq 0 (length sig)).

(** ** core/impairments.py 131-186: phase noise; [g] are the standard normal numbers drawn, one row
    per mode *)
Definition phase_noise (g : list (list R)) (df fs : R) : list (list R) :=
  map (fun row => rcumsum 0 (map (fun x => sqrt (2 * PI * df / fs) * x) row)) g.
Definition apply_phase_noise (sig : list (list C)) (g : list (list R)) (df fs : R) : result (list (list C)) :=
  rotate_rows sig (phase_noise g df fs).

(** ** core/impairments.py 235-257, add_carrier_offset *)
Definition add_carrier_offset (sig : list (list C)) (fo fs : R) : list (list C) :=
  map (fun row => map (fun p => (snd p * Cexpi (2 * PI * INR (fst p) * fo / fs))%C)
                      (combine (seq 0 (length row)) row)) sig.

(** ** Pilot-based estimation *)
(** np.angle(conj(a)*b), element by element *)
Definition phase_diff (refs rec : list C) : list R :=
  map (fun p => Carg (Cconj (fst p) * snd p)%C) (combine refs rec).
Definition moving_average_real (l : list R) (N : nat) : result (list R) :=
  let! m := moving_average (map RtoC l) (Z.of_nat N) in Ok (map fst m).

(** core/pilotbased_receiver.py 295-314: the averaging length made odd, the pilot positions in all
    frames, the received pilots and the references they are compared with.  [row_len] is the length
    of the signal; a step of zero raises ValueError. *)
Definition cpe_idx (pilot_idx : list nat) (frame_len ratio : nat) (max_blocks : option nat) (nframes nlen : nat) : list nat :=
  let sel := stride ratio (match max_blocks with None => pilot_idx | Some b => firstn b pilot_idx end) in
  filter (fun k => (k <? nlen)%nat) (flat_map (fun f => map (fun k => (k + f * frame_len)%nat) sel) (seq 0 nframes)).
Definition cpe_refs (pilots : list (list C)) (ratio nframes n : nat) : list (list C) :=
  map (fun row => firstn n (tile nframes (stride ratio row))) pilots.
(** lines 316-326 for one mode: phase trace at the positions 0 .. nlen-1 *)
Definition cpe_trace (idx_full : list nat) (refs rec : list C) (num_average nlen : nat) : result (list R) :=
  let res_phase := unwrap (phase_diff refs rec) in
  let! avg := moving_average_real res_phase num_average in
  let adj := Z.of_nat ((num_average - 1) / 2) in
  let idx_avg := pyslice adj (- adj) idx_full in
  if negb (length idx_avg =? length avg)%nat then Err AssertionError else
  mapM (interp (combine idx_avg avg)) (seq 0 nlen).
(** core/pilotbased_receiver.py 258-327, pilot_based_cpe_new *)
Definition pilot_based_cpe_new (signal pilot_symbs : list (list C)) (pilot_idx : list nat) (frame_len : nat)
           (num_average ratio : nat) (max_blocks : option nat) (nframes : nat)
  : result (list (list C) * list (list R)) :=
  if negb (1 <? num_average)%nat then Err AssertionError else
  let num_average := if Nat.odd num_average then num_average else S num_average in
  if (ratio =? 0)%nat then Err ValueError else
  let nlen := Nat.min (frame_len * nframes) (row_len signal) in
  let idx_full := cpe_idx pilot_idx frame_len ratio max_blocks nframes nlen in
  let! rec := mapM (fancy_get idx_full) signal in
  let refs := cpe_refs pilot_symbs ratio nframes (length idx_full) in
  if negb ((length rec =? length refs) && forallb (fun p => length (fst p) =? length (snd p)) (combine rec refs))%nat
  then Err AssertionError else
  if negb (num_average <=? row_len refs)%nat then Err AssertionError else
  let! trace := mapM (fun p => cpe_trace idx_full (snd p) (fst p) num_average nlen) (combine rec refs) in
  let! out := rotate_rows (map (firstn nlen) signal) (map (map Ropp) trace) in
  Ok (map (firstn (nframes * frame_len)) out, map (firstn (nframes * frame_len)) trace).

(** phaserec.py 156-192, pilot_cpe *)
Definition pilot_cpe (s : psig C) (N ratio : nat) (max_blocks : option nat) (nframes : nat) (use_seq : bool)
  : result (list (list C) * list (list R)) :=
  let idx := idx_nonzero (p_idx_pil s) in
  let idx := if use_seq then idx else pyslice_from (p_seq_len s) idx in
  let pilots := if use_seq then p_pilots s else map (pyslice_from (p_seq_len s)) (p_pilots s) in
  pilot_based_cpe_new (p_rows s) pilots idx (p_frame_len s) N ratio max_blocks nframes.

(** phaserec.py 194-218, find_pilot_const_phase (None: mean of an empty array, NaN) *)
Definition find_pilot_const_phase (rec refs : list (list C)) : result (list (option R)) :=
  mapM (fun l => let! rf := getn refs l in let! rc := getn rec l in
                 if (length rf =? length rc)%nat
                 then Ok (match rf with [] => None | _ => Some (Rmean (unwrap (phase_diff rf rc))) end)
                 else Err ValueError) (seq 0 (length rec)).
(** phaserec.py 220-238, correct_pilot_const_phase with offsets of shape (modes, 1) *)
Definition correct_pilot_const_phase (signal : list (list C)) (offsets : list R) : result (list (list C)) :=
  if negb (length signal =? length offsets)%nat then Err AssertionError else
  Ok (map (fun p => map (fun s => (s * Cexpi (- snd p))%C) (fst p)) (combine signal offsets)).

(** np.polyfit(arange(n), y, 1): least-squares slope and intercept, for n >= 2 *)
Definition polyfit1 (y : list R) : option (R * R) :=
  let n := length y in
  if (n <? 2)%nat then None else
  let sx := Rsum (map INR (seq 0 n)) in
  let sxx := Rsum (map (fun k => INR k * INR k) (seq 0 n)) in
  let sy := Rsum y in
  let sxy := Rsum (map (fun p => INR (fst p) * snd p) (combine (seq 0 n) y)) in
  let a := (INR n * sxy - sx * sy) / (INR n * sxx - sx * sx) in
  Some (a, (sy - a * sx) / INR n).
(** core/pilotbased_receiver.py 32-72, pilot_based_foe: mean offset, offset per mode, intercepts.
    None: fewer than two pilots. *)
Definition pilot_based_foe (rec pilots : list (list C)) : result (option (R * list R * list R)) :=
  let! fits := mapM (fun l => let! rf := getn pilots l in let! rc := getn rec l in
                              if (length rf =? length rc)%nat then Ok (polyfit1 (unwrap (phase_diff rf rc)))
                              else Err ValueError) (seq 0 (length rec)) in
  Ok (match all_some fits with
      | None => None
      | Some fs => let per := map (fun p => fst p / (2 * PI)) fs in Some (Rmean per, per, map snd fs)
      end).
