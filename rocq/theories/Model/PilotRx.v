(** Pilot-based receiver: frame synchronisation (core/pilotbased_receiver.py 329-451,
    signals.py 1709-1744), filtering of frames and pilot equalisers (equalisation.py 42-120 and
    268-411, core/pilotbased_receiver.py 454-553), GMI with the SNR of the pilots
    (signals.py 1885-1917).

    Equaliser training and frequency offset estimators are arguments of the definitions: the
    theorems hold for every behaviour of them. *)
From Coq Require Import String List ZArith Arith Bool Reals.
From Verif Require Import Common.Py Common.Cplx Model.Constellation Model.Decision Model.Sync Model.Pilots
  Model.Equaliser Model.Phase Model.Quality.
Import ListNotations.
Open Scope list_scope.

Definition zmin (l : list Z) : result Z :=
  match l with [] => Err ValueError | a :: l' => Ok (fold_left Z.min l' a) end.
(** rx[:, lo:hi] *)
Definition wslice {A} (rx : list (list A)) (lo hi : Z) : list (list A) := map (pyslice lo hi) rx.
(** np.unique(l).shape[0] > 1 *)
Definition several (l : list Z) : bool :=
  match l with [] => false | a :: l' => existsb (fun b => negb (a =? b)%Z) l' end.

(** ** Frame synchronisation *)
Section FrameSync.
(** [train]: equalise_signal on a search window, the taps and the variance of the error per mode
    (one finite number per mode); [find_fo]: find_freq_offset, one offset per mode *)
Variable train : list (list C) -> result (list (list (list C)) * list R).
Variable find_fo : list (list C) -> result (list R).
Variables (rx ref : list (list C)) (os frame_len ntaps : nat).

Definition seq_len : nat := row_len ref.
Definition nmodes : nat := length rx.
Definition search_window : nat := seq_len * os.
Definition step : nat := search_window / 2.

(** lines 396-405: the windows tried, from number 2 on *)
Definition search (num_steps : nat) : result (list (list (list (list C)) * list R)) :=
  mapM (fun i => train (wslice rx (Z.of_nat (i * step)) (Z.of_nat (i * step + search_window))))
       (seq 2 (num_steps - 2)).
(** sub_vars[l]: the entries of the windows not tried are 100 *)
Definition sub_vars (num_steps : nat) (res : list (list (list (list C)) * list R)) (l : nat) : result (list R) :=
  let! vs := mapM (fun p => getn (snd p) l) res in
  Ok (repeat 100%R (Nat.min 2 num_steps) ++ vs).
(** wxys[i]: zero taps for the windows not tried *)
Definition window_taps (res : list (list (list (list C)) * list R)) (i : nat) : result (list (list (list C))) :=
  if i <? 2 then Ok (repeat (repeat (repeat C0 ntaps) nmodes) nmodes)
  else let! p := getn res (i - 2) in Ok (fst p).

(** lines 411-419: the symbols in which mode l is searched *)
Definition search_symbols (res : list (list (list (list C)) * list R)) (l idx : nat) : result (list C) :=
  let w := Z.of_nat search_window in
  let long := wslice rx (Z.of_nat (idx * step) - w) (Z.of_nat (idx * step) + w) in
  let! wx := window_taps res idx in
  let! s := core_apply_filter (ArrC long) (row_len long) os (TapsC wx) ntaps None in
  let! fo := find_fo s in
  let! s' := comp_freq_offset s fo 1 in
  getn s' l.
(** 420-427: correlation with the pilot sequences not found yet, (delay, maximum) per pilot mode *)
Definition correlate (not_found : list nat) (s : list C) : result (list (Z * R)) :=
  mapM (fun p => if existsb (Nat.eqb p) not_found
                 then let! r := getn ref p in
                      let! f := find_sequence_offset_complex r s in
                      let '(ix, _, _, ac) := f in Ok ((- ix)%Z, ac)
                 else Ok (0%Z, 0%R)) (seq 0 nmodes).
(** 408-437, the loop over the modes: (pilot mode, shift factor, sync_bool) per mode.
    FRAME_SYNC_THRS is 120. *)
Fixpoint match_modes (num_steps : nat) (res : list (list (list (list C)) * list R)) (ls not_found : list nat)
  : result (list (nat * Z * bool)) :=
  match ls with
  | [] => Ok []
  | l :: rest =>
      let! vars := sub_vars num_steps res l in
      let! idx := argmin vars in
      let! s := search_symbols res l idx in
      let! cs := correlate not_found s in
      let! p := argmax (map snd cs) in
      let! c := getn cs p in
      let shift := (Z.of_nat (idx * step) + Z.of_nat os * fst c - Z.of_nat search_window)%Z in
      let ok := if Rlt_dec (snd c) 120 then false else true in
      let! r := match_modes num_steps res rest (filter (fun q => negb (q =? p)%nat) not_found) in
      Ok ((p, shift, ok) :: r)
  end.
(** 329-441; [method] is eqargs["method"].  Result: shift factors, mode order, sync_bool. *)
Definition frame_sync (method : option string) : result (list Z * list nat * bool) :=
  if negb ((frame_len + 2 * seq_len) * os <=? row_len rx) then Err AssertionError else
  if match method with Some m => memb m REAL_VALUED || memb m DATA_AIDED | None => false end then Err ValueError else
  if step =? 0 then Err ZeroDivisionError else
  let num_steps := frame_len * os / step + 1 in
  let! res := search num_steps in
  let! ms := match_modes num_steps res (seq 0 nmodes) (seq 0 nmodes) in
  Ok (map (fun m => snd (fst m)) ms, map (fun m => fst (fst m)) ms, forallb snd ms).

(** signals.py 1709-1744, sync2frame: the new rows, shiftfctrs and sync_bool *)
Definition sync2frame (method : option string) : result (list (list C) * list Z * bool) :=
  let! f := frame_sync (match method with None => Some "cma"%string | m => m end) in
  let '(shifts, order, ok) := f in
  let! rows := fancy_get order rx in
  let shifts := map (fun s => if (s <? 0)%Z then (s + Z.of_nat (frame_len * os))%Z else s) shifts in
  let! sh := fancy_get order shifts in
  Ok (rows, sh, ok).
End FrameSync.

(** pilotbased_receiver.py 443-451; int(x/2) rounds towards zero *)
Definition correct_shifts (shifts : list Z) (nt0 nt1 os : Z) : result (list Z) :=
  if (os =? 0)%Z then Err ZeroDivisionError else
  if negb ((nt1 - nt0) mod os =? 0)%Z then Err ValueError else
  Ok (map (fun s => s - Z.quot (nt1 - nt0) 2)%Z shifts).
(** 453-460; sig[i] for i beyond the rows is an IndexError.  np.roll with no shifts is a copy. *)
Definition shift_signal {A} (sig : list (list A)) (shifts : list Z) : result (list (list A)) :=
  match shifts with
  | [] => Ok sig
  | [s] => Ok (map (roll s) sig)
  | _ => if length sig <? length shifts then Err IndexError
         else Ok (map (fun p => roll (- fst p) (snd p)) (combine shifts sig) ++ skipn (length shifts) sig)
  end.

(** ** Filtering of frames, equalisation.py 42-87 *)
(** effective shift factors, lines 43-48 *)
Definition tap_shifts (shifts : list Z) (ntaps synctaps : nat) : list Z :=
  if ntaps =? synctaps then shifts
  else map (fun s => s - (Z.of_nat ntaps - Z.of_nat synctaps) / 2)%Z shifts.
Definition frame_shifts (shifts : list Z) (ntaps synctaps os fl : nat) : result (list Z) :=
  let sh := tap_shifts shifts ntaps synctaps in
  let! m := zmin sh in
  Ok (if (m <? 0)%Z then map (fun s => s + Z.of_nat (os * fl))%Z sh else sh).
(** np.all(np.diff(frames) == 1) *)
Fixpoint contiguous (f : list Z) : bool :=
  match f with
  | a :: (b :: _) as r => ((b - a =? 1)%Z && contiguous r)%bool
  | _ => true
  end.
(** np.arange(nw).reshape(-1, n).T *)
Definition mode_groups (nw n : nat) : result (list (list nat)) :=
  if (n =? 0) || negb (nw mod n =? 0) then Err ValueError
  else Ok (map (fun r => map (fun k => r + k * n) (seq 0 (nw / n))) (seq 0 n)).
(** np.squeeze(np.array(eq_mode_sig)): one row per mode (other results, and squeezing of arrays
    with one symbol per mode, are not modelled) *)
Definition squeeze (eqs : list (list (list C))) : result (list (list C)) :=
  mapM (fun rs => match rs with [r] => Ok r | _ => Err ValueError end) eqs.
(** lines 51-63 and 66-86: [nf] frames from frame f on; [sh] are the shift factors *)
Definition filter_frames (rows : list (list C)) (os fl : nat) (sh : list Z) (wxy : taps) (ntaps : nat) (f nf : Z)
  : result (list (list C)) :=
  let F := Z.of_nat (os * fl) in
  let piece s := wslice rows (s + f * F) (s + f * F + nf * F + Z.of_nat ntaps - 1) in
  if several sh then
    let nw := match wxy with TapsC w => length w | TapsR w => length w end in
    let! gs := mode_groups nw (length rows) in
    let! eqs := mapM (fun g => let! m0 := getn g 0 in let! s := getn sh m0 in
                               core_apply_filter (ArrC (piece s)) (row_len (piece s)) os wxy ntaps (Some g)) gs in
    squeeze eqs
  else
    let! s := getn sh 0 in
    core_apply_filter (ArrC (piece s)) (row_len (piece s)) os wxy ntaps None.
(** np.hstack of two-dimensional arrays *)
Fixpoint hstack {A} (l : list (list (list A))) : result (list (list A)) :=
  match l with
  | [] => Err ValueError
  | [a] => Ok a
  | a :: l' => let! b := hstack l' in
               if length a =? length b then Ok (map (fun p => fst p ++ snd p) (combine a b)) else Err ValueError
  end.
Definition apply_to_pilotsignal (rows : list (list C)) (os fl : nat) (shifts : list Z) (synctaps : nat)
  (wxy : taps) (ntaps : nat) (frames : list Z) : result (list (list C)) :=
  let! sh := frame_shifts shifts ntaps synctaps os fl in
  let! smax := zmax sh in
  let! fmax := zmax frames in
  if negb (smax + Z.of_nat (os * fl) * (fmax + 1) <? Z.of_nat (row_len rows) - (Z.of_nat ntaps - 1))%Z
  then Err AssertionError else
  let! out :=
    (if contiguous frames then
       filter_frames rows os fl sh wxy ntaps (hd 0%Z frames) (last frames 0%Z - hd 0%Z frames + 1)
     else let! fs := mapM (fun f => filter_frames rows os fl sh wxy ntaps f 1) frames in hstack fs) in
  (* recreate_from_np_array with fs=fb, signals.py 1949-1952 *)
  if fl =? 0 then Err ZeroDivisionError else
  if row_len out / fl =? 0 then Err AssertionError else Ok out.
(** equalisation.py 89-120: with frames empty the whole signal is filtered (no pilot frames) *)
Definition apply_filter_user (rows : list (list C)) (os fl : nat) (shifts : list Z) (synctaps : nat)
  (wxy : taps) (ntaps : nat) (frames : list Z) : result (list (list C)) :=
  match frames with
  | [] => core_apply_filter (ArrC rows) (row_len rows) os wxy ntaps None
  | _ => apply_to_pilotsignal rows os fl shifts synctaps wxy ntaps frames
  end.

(** ** Pilot equalisers *)
Section PilotEq.
(** [pre]: first run of methods[0] on a window (mode or all modes, taps): symbols and taps;
    [post stage]: the later runs; [foe]: pilot_based_foe, the mean offset *)
Variable pre : list (list C) -> option nat -> option taps -> result (list (list C) * taps).
Variable post : nat -> list (list C) -> option nat -> taps -> result taps.
Variable foe : list (list C) -> list (list C) -> result R.

(** core/pilotbased_receiver.py 454-553 (methods of one kind); taps and frequency offset per mode *)
Definition equalize_pilot_sequence (rows ref : list (list C)) (sh : list Z) (os ntaps : nat) (foe_comp : bool)
  (wxinit : option taps) : result (taps * list R) :=
  let P := row_len ref in
  let win s := wslice rows s (s + Z.of_nat (P * os) + Z.of_nat ntaps - 1) in
  let npols := length rows in
  let! p :=
    (if several sh then
       let! r := fold_left (fun acc i => let! a := acc in
                   let! s := getn sh i in
                   let! q := pre (win s) (Some i) (snd a) in
                   let! row := (match fst q with [r] => Ok r | _ => Err ValueError end) in
                   Ok (fst a ++ [row], Some (snd q))) (seq 0 npols) (Ok ([], wxinit)) in
       match snd r with Some w => Ok (fst r, w) | None => Err AttributeError end
     else let! s := getn sh 0 in pre (win s) None wxinit) in
  let! f := (if foe_comp then let! v := foe (fst p) ref in Ok (repeat v npols) else Ok (repeat 0%R npols)) in
  let comp w := if foe_comp then comp_freq_offset w f (INR os) else Ok w in
  let! w :=
    (if several sh then
       fold_left (fun acc i => let! a := acc in
         let! s := getn sh i in
         let! x := comp (win s) in
         let! w1 := post 0 x (Some i) a in
         post 1 x (Some i) w1) (seq 0 npols) (Ok (snd p))
     else let! s := getn sh 0 in
          let! x := comp (win s) in
          let! w1 := post 0 x None (snd p) in
          post 1 x None w1) in
  Ok (w, f).

(** what pilot_equaliser returns: nothing, the taps, taps and signal, or all *)
Inductive pe_out :=
| PE_None | PE_taps (w : taps) | PE_sig (w : taps) (s : list (list C))
| PE_all (w : taps) (s : list (list C)) (f : list R) (nt : nat * nat).

Definition taps_len (w : taps) : nat :=
  match w with
  | TapsC ((r :: _) :: _) => length r
  | TapsR ((r :: _) :: _) => length r
  | _ => 0
  end.
(** equalisation.py 268-338; [shifts] None: not synchronised; [frame] >= 0 *)
Definition pilot_equaliser (rows pilot_seq : list (list C)) (os fl : nat) (shifts : option (list Z)) (synctaps : nat)
  (ntaps : nat) (apply foe_comp : bool) (wxinit : option taps) (frame : nat) (verbose : bool) : result pe_out :=
  match shifts with
  | None => Err ValueError
  | Some sh =>
      let ntaps := match wxinit with Some w => taps_len w | None => ntaps end in
      if negb ((Z.of_nat ntaps - Z.of_nat synctaps) mod 2 =? 0)%Z then Err ValueError else
      let eq := if ntaps =? synctaps then sh
                else map (fun s => s - (Z.of_nat ntaps - Z.of_nat synctaps) / 2 + Z.of_nat (os * fl * frame))%Z sh in
      let! m := zmax eq in
      if negb (Z.of_nat (fl * os) <? Z.of_nat (row_len rows) - m)%Z then Err AssertionError else
      let! tf := equalize_pilot_sequence rows pilot_seq eq os ntaps foe_comp wxinit in
      let! out_sig := (if foe_comp then comp_freq_offset rows (snd tf) (INR os) else Ok rows) in
      if apply then
        let! s := apply_filter_user out_sig os fl sh synctaps (fst tf) ntaps [Z.of_nat frame] in
        Ok (if verbose then PE_all (fst tf) s (snd tf) (ntaps, synctaps) else PE_sig (fst tf) s)
      else Ok (if verbose then PE_None else PE_taps (fst tf))
  end.

(** equalisation.py 395-403, the loop of pilot_equaliser_nframes.  ret[0]: the taps of a tuple, the
    first row of an array of taps, a TypeError for None. *)
Definition ret0 (r : pe_out) : result taps :=
  match r with
  | PE_None => Err TypeError
  | PE_taps (TapsC w) => let! w0 := getn w 0 in Ok (TapsC [w0])
  | PE_taps (TapsR w) => let! w0 := getn w 0 in Ok (TapsR [w0])
  | PE_sig w _ => Ok w
  | PE_all w _ _ _ => Ok w
  end.
Fixpoint nframes_loop (rows pilot_seq : list (list C)) (os fl : nat) (shifts : option (list Z)) (synctaps ntaps : nat)
  (apply foe_comp : bool) (wxinit : option taps) (verbose : bool) (frames : list nat) : result (list pe_out) :=
  match frames with
  | [] => Ok []
  | i :: rest =>
      let! ret := pilot_equaliser rows pilot_seq os fl shifts synctaps ntaps apply foe_comp wxinit i verbose in
      let! wx := (if i =? 0 then let! w := ret0 ret in Ok (Some w) else Ok wxinit) in
      let! r := nframes_loop rows pilot_seq os fl shifts synctaps ntaps apply foe_comp wx verbose rest in
      Ok (ret :: r)
  end.
(** zip( *rets ) of a list with None is a TypeError; without apply the taps are zipped row by row
    (not modelled further) *)
Definition pilot_equaliser_nframes (rows pilot_seq : list (list C)) (os fl : nat) (shifts : option (list Z)) (synctaps ntaps : nat)
  (apply foe_comp : bool) (frames : list nat) (wxinit : option taps) (verbose : bool) : result (list pe_out) :=
  match shifts with
  | None => Err ValueError
  | Some sh =>
      let! m := zmax sh in
      let! f := zmax (map Z.of_nat frames) in
      if negb (Z.of_nat (fl * os) <? Z.of_nat (row_len rows) - (m + f * Z.of_nat (fl * os)))%Z then Err AssertionError else
      let! rets := nframes_loop rows pilot_seq os fl shifts synctaps ntaps apply foe_comp wxinit verbose frames in
      if existsb (fun r => match r with PE_None => true | _ => false end) rets then Err TypeError else Ok rets
  end.
End PilotEq.

(** ** GMI of a pilot signal, signals.py 1885-1917.
    [data] are the rows of get_data, [psym], [prx] the reference and the received pilots with
    mapping [pmp]; the estimated SNR is a plain ratio and is handed on as it is. *)
Definition pilot_est_snr (pmp : mapping) (psym prx : list (list C)) : result (list (option R)) :=
  let! s := est_snr pmp psym prx true in Ok (map snr_value s).
Definition pilot_cal_gmi (mp : mapping) (nbits : nat) (symbols data : list (list C)) (synced : bool)
  (pmp : mapping) (psym prx : list (list C)) (snr : option (list R)) (use_pilot_snr : bool)
  : result (list (option (list R))) :=
  match use_pilot_snr, snr with
  | true, Some _ => Err AssertionError
  | false, _ => cal_gmi mp nbits symbols data synced snr false
  | true, None =>
      let! s := pilot_est_snr pmp psym prx in
      match all_some s with
      | Some l => cal_gmi mp nbits symbols data synced (Some l) false
      | None => Err ValueError (* an SNR that is not a number gives a GMI that is not one: not modelled *)
      end
  end.
