(** Property theorems C34-C37, C77, C94: the pilot-based receiver. *)
From Coq Require Import String List ZArith Arith Bool Reals Permutation Lia Lra.
From Verif Require Import Common.Py Common.Cplx Common.SumX Model.Constellation Model.Decision Model.Sync Model.Pilots Model.Equaliser Model.Phase
  Model.Quality Model.PilotRx Spec.Seq Spec.Equal Spec.PilotSpec Proofs.PilotRxP Proofs.PilotRxQ Proofs.PilotRxR Proofs.PilotRxS Proofs.PilotRxT Proofs.PilotRxU.
Import ListNotations.
Open Scope list_scope.

(** C34: fl symbols per frame and mode, each the filter output at its sample; complex taps *)
Theorem C34_frames_complex : forall rows p L os fl shifts sy w nt frames, 0 < os -> 0 < fl -> 0 < p -> 0 < nt ->
  shape rows p L -> shape3 w p p nt -> length shifts = p -> frames <> [] ->
  (forall m f, m < p -> In f frames -> frame_in L nt os fl (frame_start shifts nt sy os fl m) f) ->
  exists out, apply_to_pilotsignal rows os fl shifts sy (TapsC w) nt frames = Ok out /\
    shape out p (length frames * fl) /\
    forall m j k, m < p -> j < length frames -> k < fl ->
      cell C0 out m (j * fl + k) = fir rows (nth m w []) nt
        (Z.to_nat (frame_start shifts nt sy os fl m + nth j frames 0%Z * Z.of_nat (os * fl)) + k * os).
Proof. intros rows p L os fl shifts sy w. exact (apply_pilot_ok rows p L os fl shifts sy (TapsC w)). Qed.
Print Assumptions C34_frames_complex.
(** the same with real taps: rows m and p+m of the taps act on the real and imaginary parts of all modes *)
Theorem C34_frames_real : forall rows p L os fl shifts sy w nt frames, 0 < os -> 0 < fl -> 0 < p -> 0 < nt ->
  shape rows p L -> shape3 w (p + p) (p + p) nt -> length shifts = p -> frames <> [] ->
  (forall m f, m < p -> In f frames -> frame_in L nt os fl (frame_start shifts nt sy os fl m) f) ->
  exists out, apply_to_pilotsignal rows os fl shifts sy (TapsR w) nt frames = Ok out /\
    shape out p (length frames * fl) /\
    forall m j k, m < p -> j < length frames -> k < fl ->
      let s := Z.to_nat (frame_start shifts nt sy os fl m + nth j frames 0%Z * Z.of_nat (os * fl)) + k * os in
      let parts := map (map Re) rows ++ map (map Im) rows in
      cell C0 out m (j * fl + k) = (fir_real parts (nth m w []) nt s, fir_real parts (nth (m + length rows) w []) nt s).
Proof. intros rows p L os fl shifts sy w. exact (apply_pilot_ok rows p L os fl shifts sy (TapsR w)). Qed.
Print Assumptions C34_frames_real.
(** a frame that ends after the last sample is refused *)
Theorem C34_short_signal : forall rows p L os fl shifts sy wxy nt frames, 0 < p -> shape rows p L -> length shifts = p ->
  (exists m f, m < p /\ In f frames /\
     (Z.of_nat L <= frame_start shifts nt sy os fl m + (f + 1) * Z.of_nat (os * fl) + Z.of_nat nt - 1)%Z) ->
  apply_to_pilotsignal rows os fl shifts sy wxy nt frames = Err AssertionError.
Proof. exact apply_pilot_short. Qed.
Print Assumptions C34_short_signal.
(** filtering the frames of two lists (contiguous or not) in one go is filtering them one after the other *)
Theorem C34_concatenation : forall rows p L os fl shifts sy wxy nt f1 f2, 0 < os -> 0 < fl -> 0 < p -> 0 < nt ->
  shape rows p L -> match wxy with TapsC w => shape3 w p p nt | TapsR w => shape3 w (p + p) (p + p) nt end ->
  length shifts = p -> f1 <> [] -> f2 <> [] ->
  (forall m f, m < p -> In f (f1 ++ f2) -> frame_in L nt os fl (frame_start shifts nt sy os fl m) f) ->
  exists o1 o2, apply_to_pilotsignal rows os fl shifts sy wxy nt f1 = Ok o1 /\ apply_to_pilotsignal rows os fl shifts sy wxy nt f2 = Ok o2 /\
    apply_to_pilotsignal rows os fl shifts sy wxy nt (f1 ++ f2) = Ok (map (fun m => nth m o1 [] ++ nth m o2 []) (seq 0 p)).
Proof. exact frames_app. Qed.
Print Assumptions C34_concatenation.
(** one mode of 9 samples, frames of 2 symbols, 3 taps after synchronisation with one: the tap count moves the start to sample 1 *)
Example C34_case : let r k := (INR k, 0%R) in let rows := [map r (seq 0 9)] in
  exists out, apply_to_pilotsignal rows 1 2 [2%Z] 1 (TapsC [[[C0; C1; C0]]]) 3 [1%Z; 0%Z] = Ok out /\
    out = [[r 4; r 5; r 2; r 3]].
Proof.
  cbv zeta. set (r := fun k => (INR k, 0%R)).
  destruct (C34_frames_complex [map r (seq 0 9)] 1 9 1 2 [2%Z] 1 [[[C0; C1; C0]]] 3 [1%Z; 0%Z]) as (out & E & [Hl HR] & V); try lia; try reflexivity; try discriminate.
  - split; [reflexivity|repeat constructor].
  - split; [reflexivity|]. constructor; [|constructor]. split; [reflexivity|repeat constructor].
  - intros m f Hm [<-|[<-|[]]]; (assert (m = 0) by lia; subst); unfold frame_in, frame_start, extra; cbn; lia.
  - exists out. split; [exact E|]. destruct out as [|o [|]]; cbn in Hl; try lia. inversion HR as [|? ? Ho _]; subst.
    destruct o as [|a [|b [|c [|d [|]]]]]; cbn in Ho; try lia.
    assert (HV : forall j k, j < 2 -> k < 2 -> nth (j * 2 + k) [a; b; c; d] C0 = r (match j with 0 => 4 + k | _ => 2 + k end)).
    { intros j k Hj Hk. etransitivity; [exact (V 0 j k ltac:(lia) ltac:(exact Hj) ltac:(exact Hk))|].
      destruct j as [|[|]]; [| |lia]; (destruct k as [|[|]]; [| |lia]);
      unfold fir, csum; cbn [length seq map nth]; unfold cell; unfold frame_start, extra;
      match goal with |- context [Z.to_nat ?e] => let v := eval vm_compute in (Z.to_nat e) in change (Z.to_nat e) with v end;
      cbn [nth map seq Nat.add Nat.mul]; unfold Csum; cbn [fold_right]; unfold r, Cmul, Cadd, C0, C1; cbn [fst snd]; apply f_equal2; ring. }
    pose proof (HV 0 0 ltac:(lia) ltac:(lia)) as Ha. pose proof (HV 0 1 ltac:(lia) ltac:(lia)) as Hb.
    pose proof (HV 1 0 ltac:(lia) ltac:(lia)) as Hc. pose proof (HV 1 1 ltac:(lia) ltac:(lia)) as Hd. cbn [nth Nat.add Nat.mul] in Ha, Hb, Hc, Hd. rewrite Ha, Hb, Hc, Hd. reflexivity.
Qed.
Example C34_case_short : forall a b c : C, apply_to_pilotsignal [[a; b; c]] 1 2 [1%Z] 1 (TapsC [[[C1]]]) 1 [0%Z] = Err AssertionError.
Proof. reflexivity. Qed.

(** C35: with a tap count other than that of the synchronisation, training on frame f is training on
    frame 0 of the signal without its first f frames, for every equaliser and frequency estimator *)
Theorem C35_frame_partial : forall pre post foe rows ref os fl shifts sy nt fc wx frame,
  let n := match wx with Some w => taps_len w | None => nt end in
  1 <= n -> n <> sy -> Forall (fun s => extra n sy <= s)%Z shifts ->
  pilot_equaliser pre post foe rows ref os fl (Some shifts) sy nt false fc wx frame false =
  pilot_equaliser pre post foe (drop (os * fl * frame) rows) ref os fl (Some shifts) sy nt false fc wx 0 false.
Proof. exact pe_frame. Qed.
Print Assumptions C35_frame_partial.
(** and it looks only at the samples of the pilot sequence of that frame (and the filter's length) *)
Theorem C35_window_partial : forall pre post foe rows rows' p L ref os fl shifts sy nt fc wx frame,
  let n := match wx with Some w => taps_len w | None => nt end in
  1 <= n -> n <> sy -> shape rows p L -> shape rows' p L ->
  (forall s, In s shifts -> let s' := (s - extra n sy + Z.of_nat (os * fl * frame))%Z in
     (0 <= s')%Z /\ agree_on rows rows' (Z.to_nat s') (row_len ref * os + n - 1)) ->
  pilot_equaliser pre post foe rows ref os fl (Some shifts) sy nt false fc wx frame false =
  pilot_equaliser pre post foe rows' ref os fl (Some shifts) sy nt false fc wx frame false.
Proof.
  intros pre post foe rows rows' p L ref os fl shifts sy nt fc wx frame n Hn Hne HR HR' HA.
  apply (pe_window pre post foe rows rows' p L); try assumption. fold n. intros s Hs. unfold eq_shifts in Hs.
  change (eff_taps nt wx) with n in Hs. apply Nat.eqb_neq in Hne. rewrite Hne in Hs.
  apply in_map_iff in Hs as (s0 & <- & Hs0). exact (HA s0 Hs0).
Qed.
Print Assumptions C35_window_partial.
(** with equal tap counts the requested frame is ignored *)
Theorem C35_same_taps_refuted : forall pre post foe rows ref os fl shifts sy nt fc wx frame v,
  match wx with Some w => taps_len w | None => nt end = sy ->
  pilot_equaliser pre post foe rows ref os fl (Some shifts) sy nt false fc wx frame v =
  pilot_equaliser pre post foe rows ref os fl (Some shifts) sy nt false fc wx 0 v.
Proof. exact pe_frame_ignored. Qed.
Print Assumptions C35_same_taps_refuted.
(** a first pilot sequence that would start before the first sample: trained on nothing of the signal *)
Theorem C35_negative_start_refuted : forall pre post foe rows rows' p L ref os fl shifts sy nt fc wx,
  let n := match wx with Some w => taps_len w | None => nt end in
  shape rows p L -> shape rows' p L ->
  (forall s, In s shifts -> s < extra n sy /\ 0 <= s - extra n sy + Z.of_nat (row_len ref * os + n) - 1)%Z ->
  1 <= n -> row_len ref * os + n - 1 <= L -> n <> sy ->
  pilot_equaliser pre post foe rows ref os fl (Some shifts) sy nt false fc wx 0 false =
  pilot_equaliser pre post foe rows' ref os fl (Some shifts) sy nt false fc wx 0 false.
Proof. exact pe_negative. Qed.
Print Assumptions C35_negative_start_refuted.
(** verbose=True with apply=False returns None instead of the taps, and an error for several frames *)
Theorem C35_verbose_refuted : forall pre post foe rows ref os fl shifts sy nt fc wx,
  (forall frame o, pilot_equaliser pre post foe rows ref os fl shifts sy nt false fc wx frame true = Ok o -> o = PE_None) /\
  (forall frames o, pilot_equaliser_nframes pre post foe rows ref os fl shifts sy nt false fc frames wx true <> Ok o).
Proof.
  intros. split; intros.
  - eapply pe_verbose. eassumption.
  - apply nframes_verbose.
Qed.
Print Assumptions C35_verbose_refuted.
(** training that returns its window: with three taps frame 1 of 0...8 gives samples 4...6 (start 2 less one, plus 3),
    with one tap it gives sample 2 of frame 0 *)
Definition show (w : list (list C)) (m : option nat) (t : option taps) : result (list (list C) * taps) := Ok (w, TapsC [w]).
Example C35_case : let r k := (INR k, 0%R) in let rows := [map r (seq 0 9)] in
  let pe nt := pilot_equaliser show (fun _ _ _ w => Ok w) (fun _ _ => Ok 0%R) rows [[C1]] 1 3 (Some [2%Z]) 1 nt false false None 1 false in
  pe 3 = Ok (PE_taps (TapsC [[[r 4; r 5; r 6]]])) /\ pe 1 = Ok (PE_taps (TapsC [[[r 2]]])).
Proof. split; reflexivity. Qed.
(** shift factor 0 and three taps: the window starts at sample -1 and is empty *)
Example C35_case_negative : forall a b c d e f : C,
  pilot_equaliser show (fun _ _ _ w => Ok w) (fun _ _ => Ok 0%R) [[a; b; c; d; e; f]] [[C1]] 1 3 (Some [0%Z]) 1 3 false false None 0 false =
  Ok (PE_taps (TapsC [[[]]])).
Proof. reflexivity. Qed.

(** C36: the mode order is a permutation, rows and shift factors are arranged alike, and the pilot
    sequence at a shift factor lies in the signal -- for every equaliser and frequency estimator *)
Theorem C36_permutation_and_shifts : forall train find_fo rx ref os fl nt L meth rows sh ok,
  rect rx L -> rect ref (row_len ref) -> 1 <= nt -> 1 <= os -> rx <> [] -> row_len ref <= fl ->
  sync2frame train find_fo rx ref os fl nt meth = Ok (rows, sh, ok) ->
  exists shifts order,
    frame_sync train find_fo rx ref os fl nt (match meth with None => Some "cma"%string | m => m end) = Ok (shifts, order, ok) /\
    Permutation order (seq 0 (length rx)) /\ rows = map (fun l => nth l rx []) order /\
    sh = map (fun l => let s := nth l shifts 0%Z in if (s <? 0)%Z then (s + Z.of_nat (fl * os))%Z else s) order /\
    length sh = length rx /\ Forall (fun s => (0 <= s /\ s + Z.of_nat (row_len ref * os) <= Z.of_nat L)%Z) sh.
Proof. exact sync2frame_rows. Qed.
Print Assumptions C36_permutation_and_shifts.
Example C36_case : sync2frame train3 fo3 rx3 ref3 1 2 1 None = Ok ([nth 1 rx3 []; nth 2 rx3 []; nth 0 rx3 []], [1; 1; 1]%Z, false).
Proof. exact sync3_rows. Qed.

(** C37: several modes are moved so that sample shifts[m] comes to position 0 *)
Theorem C37_several_modes_partial : forall {A} (sig : list (list A)) shifts,
  2 <= length shifts <= length sig -> Forall (fun r => r <> []) sig ->
  exists out, shift_signal sig shifts = Ok out /\ length out = length sig /\
    (forall m, m < length shifts -> length (nth m out []) = length (nth m sig []) /\
       delayed_repetition (nth m sig []) (- nth m shifts 0%Z) (nth m out [])) /\
    (forall m, length shifts <= m -> nth_error out m = nth_error sig m).
Proof. exact @shift_several. Qed.
Print Assumptions C37_several_modes_partial.
(** with one shift factor the signal is moved the other way *)
Theorem C37_one_mode_refuted : forall {A} (sig : list (list A)) s, Forall (fun r => r <> []) sig ->
  exists out, shift_signal sig [s] = Ok out /\ Forall2 (fun r o => length o = length r /\ delayed_repetition r s o) sig out.
Proof. exact @shift_single. Qed.
Print Assumptions C37_one_mode_refuted.
(** the correction of the shift factors for another number of taps *)
Theorem C37_correct_shifts_partial : forall shifts (nt sy os : nat), 0 < os ->
  ((Z.of_nat nt - Z.of_nat sy) mod Z.of_nat os = 0)%Z -> ((Z.of_nat nt - Z.of_nat sy) mod 2 = 0)%Z ->
  correct_shifts shifts (Z.of_nat sy) (Z.of_nat nt) (Z.of_nat os) = Ok (map (fun s => s - extra nt sy)%Z shifts).
Proof. exact correct_shifts_even. Qed.
Print Assumptions C37_correct_shifts_partial.
Example C37_case : shift_signal [[0; 1; 2; 3]; [10; 11; 12; 13]] [1%Z; 3%Z] = Ok [[1; 2; 3; 0]; [13; 10; 11; 12]] /\
  shift_signal [[0; 1; 2; 3]] [1%Z] = Ok [[3; 0; 1; 2]] /\ correct_shifts [10%Z] 7 11 2 = Ok [8%Z].
Proof. repeat split; reflexivity. Qed.

(** C94: with up to two modes the row with pilot sequence p is row p after sync2frame, and its shift
    factor is where the sequence was found *)
Theorem C94_two_modes_partial : forall train find_fo rx ref os fl nt L P tr fo pil pos qrt idx,
  rect rx L -> rx <> [] -> length rx <= 2 -> 1 <= P -> 1 <= os -> P * os <> 1 -> nt <= 2 * (P * os) -> (fl + 2 * P) * os <= L -> row_len ref = P ->
  length rx <= length ref -> Forall (fun r => length r = P /\ unit_modulus r) ref ->
  search_finds train find_fo rx ref os fl nt P tr fo pil pos qrt idx ->
  exists rows sh, sync2frame train find_fo rx ref os fl nt None = Ok (rows, sh, 120 <=? P) /\
    forall l, l < length rx -> nth_error rows (pil l) = nth_error rx l /\
      exists s, nth_error sh (pil l) = Some s /\
        s = if (found_shift os P pos idx l <? 0)%Z then (found_shift os P pos idx l + Z.of_nat (fl * os))%Z else found_shift os P pos idx l.
Proof. exact finds_arranges. Qed.
Print Assumptions C94_two_modes_partial.
(** for any number of modes frame_sync finds the pilot sequence and the shift of every mode *)
Theorem C94_modes_found_partial : forall train find_fo rx ref os fl nt L meth P tr fo pil pos qrt idx,
  rect rx L -> rx <> [] -> 1 <= P -> 1 <= os -> P * os <> 1 -> nt <= 2 * (P * os) -> (fl + 2 * P) * os <= L -> row_len ref = P ->
  length rx <= length ref -> Forall (fun r => length r = P /\ unit_modulus r) ref ->
  match meth with Some m => memb m REAL_VALUED || memb m DATA_AIDED | None => false end = false ->
  search_finds train find_fo rx ref os fl nt P tr fo pil pos qrt idx ->
  frame_sync train find_fo rx ref os fl nt meth =
  Ok (map (found_shift os P pos idx) (seq 0 (length rx)), map pil (seq 0 (length rx)), 120 <=? P).
Proof. exact finds_sync. Qed.
Print Assumptions C94_modes_found_partial.
(** three modes: mode 2 carries pilot sequence 0 but does not become row 0 *)
Theorem C94_three_modes_refuted : exists rows sh ok shifts order,
  frame_sync train3 fo3 rx3 ref3 1 2 1 (Some "cma"%string) = Ok (shifts, order, ok) /\
  sync2frame train3 fo3 rx3 ref3 1 2 1 None = Ok (rows, sh, ok) /\
  nth_error order 2 = Some 0 /\ nth_error rows 0 <> nth_error rx3 2.
Proof.
  eexists _, _, _, _, _. split; [exact sync3|]. split; [exact sync3_rows|]. split; [reflexivity|].
  intros H. cbv [nth_error nth rx3 q0 q1 q2 app C1 Ci cm1 cmi] in H. injection H. intros. lra.
Qed.
Print Assumptions C94_three_modes_refuted.
(** three modes with known pilot sequences [1; 2; 0] are a case of the theorem *)
Example C94_case_search : search_finds train3 fo3 rx3 ref3 1 2 1 2 (fun _ => (id3, [0; 0; 0]%R)) (fun _ => [0; 0; 0]%R) pil3 (fun _ => 1%Z) (fun _ => 3) (fun _ => 2).
Proof. exact finds3. Qed.
Example C94_case : frame_sync train3 fo3 rx3 ref3 1 2 1 (Some "cma"%string) = Ok ([1; 1; 1]%Z, [1; 2; 0], false).
Proof. exact sync3. Qed.

(** C77: the estimated SNR is handed on as a ratio; that is right only where ratio and decibel agree *)
Theorem C77_pilot_snr_partial : forall mp k symbols data synced pmp psym prx sg,
  pilot_est_snr pmp psym prx = Ok (map Some sg) -> Forall (fun s => to_db s = s) sg ->
  pilot_cal_gmi mp k symbols data synced pmp psym prx None true = cal_gmi mp k symbols data synced (Some (map to_db sg)) false.
Proof.
  intros mp k symbols data synced pmp psym prx sg H HF. rewrite (pilot_gmi_eq mp k symbols data synced pmp psym prx sg H).
  replace (map to_db sg) with sg; [reflexivity|]. induction HF as [|s sg Hs HF IH]; [reflexivity|]. cbn [map]. rewrite Hs. f_equal.
  clear - HF. induction HF as [|s sg Hs HF IH]; [reflexivity|]. cbn [map]. rewrite Hs, <- IH. reflexivity.
Qed.
Print Assumptions C77_pilot_snr_partial.
(** what is computed in general *)
Theorem C77_unit_refuted : forall mp k symbols data synced pmp psym prx sg,
  pilot_est_snr pmp psym prx = Ok (map Some sg) ->
  pilot_cal_gmi mp k symbols data synced pmp psym prx None true = cal_gmi mp k symbols data synced (Some sg) false.
Proof. exact pilot_gmi_eq. Qed.
Print Assumptions C77_unit_refuted.
(** an SNR of 1 (0 dB) is taken for 1 dB: another GMI *)
Theorem C77_one_refuted : exists mp symbols data psym prx sg,
  pilot_est_snr mp psym prx = Ok (map Some sg) /\
  pilot_cal_gmi mp 1 symbols data true mp psym prx None true <> cal_gmi mp 1 symbols data true (Some (map to_db sg)) false.
Proof.
  exists bpsk, [[C1]], [[C1]], [[C1; C1; m1; m1]], [[(2, 0)%R; C0; (-2, 0)%R; C0]], [1%R].
  split; [exact bpsk_snr|]. rewrite (pilot_gmi_eq bpsk 1 [[C1]] [[C1]] true bpsk _ _ [1%R] bpsk_snr).
  cbn [map]. rewrite !bpsk_gmi. replace (to_db 1) with 0%R by (unfold to_db; rewrite ln_1; unfold Rdiv; ring).
  rewrite pow10_0. intros H. injection H as H. pose proof (g_of_inj 1 _ pow10_pos1). lra.
Qed.
Print Assumptions C77_one_refuted.
Example C77_case : to_db 10 = 10%R /\ to_db 1 = 0%R.
Proof.
  unfold to_db. split.
  - assert (0 < ln 10)%R by (rewrite <- ln_1; apply ln_increasing; lra). field. lra.
  - rewrite ln_1. unfold Rdiv. ring.
Qed.
