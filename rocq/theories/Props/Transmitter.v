(** Properties C106 to C111: simulated transmitter, its DAC and filters. *)
From Coq Require Import List Arith ZArith Reals Lra Lia.
From Verif Require Import Common.Py Common.Cplx Common.SumX Common.Dft Model.Helpers Model.Impair Model.Filters Model.Transmitter
  Spec.Seq Spec.Equal Spec.ImpairSpec Spec.FilterSpec Spec.TxS Proofs.TxP Proofs.TxQ Proofs.TxR Proofs.TxE Proofs.TxZ.
Import ListNotations.
Local Open Scope R_scope.

(** ** C106 *)
(** noise of a quantiser for the largest real or imaginary part is added to both parts, and the
    ratio of the signal power to its power is reported *)
Theorem C106_complex_partial : forall sig enob nr ni p n m, shape sig p n -> shape nr p n -> shape ni p n -> 0 < m -> peak m (concat sig) ->
  exists out snr, apply_enob_as_awgn sig enob nr ni = Ok (out, Some snr) /\ shape out p n /\
    (forall i row a b row', nth_error sig i = Some row -> nth_error nr i = Some a -> nth_error ni i = Some b -> nth_error out i = Some row' ->
       forall k z x y, nth_error row k = Some z -> nth_error a k = Some x -> nth_error b k = Some y ->
         nth_error row' k = Some (z + Cscal (quant_sigma m enob) (x, y))%C) /\
    Rpower 10 (snr / 10) * (2 * quant_sigma m enob ^ 2) = sample_power (concat sig).
Proof. exact enob_ok. Qed.
Print Assumptions C106_complex_partial.
(** for a real signal the noise is right but the reported ratio is half of what was applied *)
Theorem C106_real_partial : forall sig enob nr ni p n m, shape sig p n -> shape nr p n -> shape ni p n -> 0 < m ->
  (forall x, In x (concat sig) -> Rabs x <= m) -> (exists x, In x (concat sig) /\ Rabs x = m) ->
  exists out snr, apply_enob_as_awgn_real sig enob nr ni = Ok (out, Some snr) /\
    (forall i row a b, nth_error sig i = Some row -> nth_error nr i = Some a -> nth_error ni i = Some b ->
       exists row', nth_error out i = Some row' /\ forall k x y w, nth_error row k = Some x -> nth_error a k = Some y -> nth_error b k = Some w ->
         nth_error row' k = Some (x + quant_sigma m enob * y)) /\
    Rpower 10 (snr / 10) * (2 * quant_sigma m enob ^ 2) = Rsum (map (fun x => x ^ 2) (concat sig)) / INR (length (concat sig)).
Proof. exact enob_real_ok. Qed.
Print Assumptions C106_real_partial.
Theorem C106_real_refuted : ~ forall sig enob nr ni m out snr, 0 < m ->
  (forall x, In x (concat sig) -> Rabs x <= m) -> (exists x, In x (concat sig) /\ Rabs x = m) ->
  apply_enob_as_awgn_real sig enob nr ni = Ok (out, Some snr) ->
  Rpower 10 (snr / 10) * quant_sigma m enob ^ 2 = Rsum (map (fun x => x ^ 2) (concat sig)) / INR (length (concat sig)).
Proof. exact enob_real_half. Qed.
Print Assumptions C106_real_refuted.
Example C106_case : exists snr, apply_enob_as_awgn [[(1, 0)]] 0 [[1]] [[-1]] = Ok ([[(1 + 2 / sqrt 12, - (2 / sqrt 12))]], Some snr) /\
  Rpower 10 (snr / 10) = 3 / 2.
Proof. exact enob_case. Qed.

(** ** C107 *)
Theorem C107_off_partial : forall des sig fs c nr ni, Rabs (c - 1) <= / 100000000 + / 100000 ->
  sim_DAC_response des sig fs (mk_dac c 0 0 None) nr ni = Ok (Some sig).
Proof. exact DAC_off. Qed.
Print Assumptions C107_off_partial.
(** each mode is limited at the fraction c of its own peak, and scaled to peak 1 *)
Theorem C107_modes_partial : forall des sig peaks fs c nr ni, Forall2 (fun row m => 0 < m /\ peak m row) sig peaks ->
  0 < c -> / 100000000 + / 100000 < Rabs (c - 1) ->
  sim_DAC_response des sig fs (mk_dac c 0 0 None) nr ni =
  Ok (Some (map (fun p => map (fun z => Cscal (/ (c * snd p)) (limit (c * snd p) (fst z), limit (c * snd p) (snd z))) (fst p)) (combine sig peaks))).
Proof. exact DAC_clip. Qed.
Print Assumptions C107_modes_partial.
(** one factor for modes of equal peak *)
Theorem C107_common_partial : forall des sig m fs c nr ni, 0 < m -> (forall row, In row sig -> peak m row) -> 0 < c -> / 100000000 + / 100000 < Rabs (c - 1) ->
  sim_DAC_response des sig fs (mk_dac c 0 0 None) nr ni =
  Ok (Some (map (map (fun z => Cscal (/ (c * m)) (limit (c * m) (fst z), limit (c * m) (snd z)))) sig)).
Proof. exact DAC_clip_common. Qed.
Print Assumptions C107_common_partial.
(** otherwise the modes are not scaled alike *)
Theorem C107_refuted : ~ forall des sig peaks fs c nr ni out, Forall2 (fun row m => 0 < m /\ peak m row) sig peaks ->
  0 < c -> / 100000000 + / 100000 < Rabs (c - 1) -> sim_DAC_response des sig fs (mk_dac c 0 0 None) nr ni = Ok (Some out) ->
  exists g, 0 < g /\ out = map (fun p => map (fun z => Cscal g (limit (c * snd p) (fst z), limit (c * snd p) (snd z))) (fst p)) (combine sig peaks).
Proof. exact clip_factor. Qed.
Print Assumptions C107_refuted.
Example C107_case : forall des nr ni, sim_DAC_response des [[(1, - (1 / 4)); (0, 1 / 8)]] 1 (mk_dac (1 / 2) 0 0 None) nr ni =
  Ok (Some [[(1, - (1 / 2)); (0, 1 / 4)]]).
Proof. exact clip_case. Qed.

(** ** C108 *)
Theorem C108_amplitude : forall des a sig fs v q p nr ni, 0 < a ->
  sim_tx_response des (map (map (Cscal a)) sig) fs v q p nr ni = sim_tx_response des sig fs v q p nr ni.
Proof. exact tx_scal. Qed.
Print Assumptions C108_amplitude.
(** whatever the DAC does, its output is scaled to the peak voltage v *)
Theorem C108_drive : forall des sig fs v q p nr ni out, sim_tx_response des sig fs v q p nr ni = Ok (Some out) ->
  exists s m, sim_DAC_response des sig fs q nr ni = Ok (Some s) /\ 0 < m /\ peak m (concat s) /\
    out = map (map (fun z => modulator_sample (m_bias p) (m_gain p) (m_chirp p) (m_bias_out p) (m_gain_out p) (Cscal (v / m) z))) s.
Proof. exact tx_drive. Qed.
Print Assumptions C108_drive.
(** all impairments off *)
Theorem C108_ideal : forall des sig fs v nr ni m, 0 < m -> peak m (concat sig) ->
  sim_tx_response des sig fs v (mk_dac 1 0 0 None) (mk_mod (1, 0) (1, 0) (0, 0) (1 / 2) 1) nr ni =
  Ok (Some (map (map (fun z => (sin (PI / 2 * (v / m * fst z)) / 2, sin (PI / 2 * (v / m * snd z)) / 2))) sig)).
Proof. exact tx_ideal. Qed.
Print Assumptions C108_ideal.
Example C108_case : forall des nr ni, sim_tx_response des [[(4, -4); (0, 2)]] 1 1 (mk_dac 1 0 0 None) (mk_mod (1, 0) (1, 0) (0, 0) (1 / 2) 1) nr ni =
  Ok (Some [[(1 / 2, - (1 / 2)); (0, sin (PI / 4) / 2)]]).
Proof. exact tx_case. Qed.

(** ** C109 *)
(** n: power spectrum of the pulse, d: response of the DAC, alpha: noise-to-signal ratio of its
    quantiser *)
Theorem C109_mmse : forall des fb N beta PAPR cutoff order enob os sys rc,
  0 < fb -> 0 < os -> 0 < beta <= 1 -> (1 <= N)%nat -> des Bessel order cutoff (fb * os) = Ok sys ->
  (forall k s, (k < N)%nat -> In s sys -> sec_den s (2 * PI * INR k / INR N) <> C0) ->
  rcos_freq (map (bin_freq (fb * os) N) (seq 0 N)) beta (1 / fb) = Ok rc ->
  exists out (d : nat -> C), comp_dac_resp des fb N beta PAPR cutoff order enob os = Ok out /\ length out = N /\
    (forall k, (k < N)%nat -> transfer sys (2 * PI * INR k / INR N) (d k)) /\
    let n k := nth k rc 0 * fb in
    let alpha := Rpower 10 (PAPR / 10) / (6 * fb * Rpower 2 (2 * enob)) * (rsum N (fun k => n k * Cnorm2 (d k)) * (fb * os / INR N)) in
    0 <= alpha /\ (alpha = 0 -> forall k, (k < N)%nat -> nth_error out k = Some None) /\
    (0 < alpha -> forall k, (k < N)%nat -> exists p g, nth_error out k = Some (Some p) /\ 0 <= g < 1 /\ (d k * p)%C = RtoC g /\
       forall q, n k * Cnorm2 (C1 - d k * p)%C + alpha * Cnorm2 p <= n k * Cnorm2 (C1 - d k * q)%C + alpha * Cnorm2 q).
Proof. exact comp_dac_ok. Qed.
Print Assumptions C109_mmse.
Example C109_case : comp_dac_resp (fun _ _ _ _ => Ok []) 1 1 1 0 1 2 0 1 = Ok [Some (6 / 7, 0)].
Proof. exact dac_case. Qed.

(** ** C110 *)
(** Hermitian response with the values of the table *)
Theorem C110_table_partial : forall rows fs N r0, nth_error rows 0 = Some r0 -> r_f r0 = 0 -> r_mag r0 * sin (r_ph r0) = 0 -> increasing rows -> (321 <= length rows)%nat ->
  exists H, load_dac_response rows fs N = Ok H /\ length H = N /\
    (forall k, (1 <= k < N)%nat -> (2 * k <> N)%nat -> nth (N - k) H C0 = Cconj (nth k H C0)) /\
    (forall k r, (2 * k < N)%nat -> In r rows -> r_f r = INR k * fs / INR N -> nth k H C0 = (r_mag r * cos (r_ph r), r_mag r * sin (r_ph r))).
Proof. exact load_dac_ok. Qed.
Print Assumptions C110_table_partial.
(** beyond the table: the magnitude in its row 320, not zero *)
Theorem C110_fill_partial : forall rows fs N r320 H, nth_error rows 320 = Some r320 -> load_dac_response rows fs N = Ok H ->
  forall k, (2 * k < N)%nat -> 0 <= fs -> (forall r, In r rows -> 0 <= r_f r < INR k * fs / INR N) -> nth k H C0 = (r_mag r320, 0).
Proof. exact load_dac_fill. Qed.
Print Assumptions C110_fill_partial.
Theorem C110_fill_refuted : ~ forall rows fs N H k, 0 < fs -> increasing rows -> load_dac_response rows fs N = Ok H -> (2 * k < N)%nat ->
  (forall r, In r rows -> 0 <= r_f r < INR k * fs / INR N) -> nth k H C0 = C0.
Proof. exact file_fill. Qed.
Print Assumptions C110_fill_refuted.
(** a measured response can never be applied *)
Theorem C110_apply_refuted : forall des sig fs cutoff rows, ~ exists out, apply_DAC_filter des sig fs cutoff (Some rows) = Ok out.
Proof. exact DAC_file. Qed.
Print Assumptions C110_apply_refuted.
Example C110_case : exists H, load_dac_response (map (fun k => mk_row (INR k) (1 / (1 + INR k)) 0) (seq 0 321)) 8 4 = Ok H /\
  nth 1 H C0 = (1 / 3, 0) /\ nth 3 H C0 = (1 / 3, 0).
Proof. exact file_case. Qed.

(** ** C111 *)
Theorem C111_cascade : forall des fs cutoff ftype order sys, ftype <> OtherType -> des ftype order cutoff fs = Ok sys ->
  forall sig, match sig with
  | D1 x => exists y, filter_sos des sig fs cutoff ftype order = Ok (D1 y) /\ length y = length x /\ cascade sys x y
  | D2 X => exists Y, filter_sos des sig fs cutoff ftype order = Ok (D2 Y) /\ Forall2 (fun x y => length y = length x /\ cascade sys x y) X Y
  end.
Proof. exact filter_ok. Qed.
Print Assumptions C111_cascade.
(** the difference equations have one solution *)
Theorem C111_unique : forall sos x y z, cascade sos x y -> cascade sos x z -> y = z.
Proof. exact cascade_unique. Qed.
Print Assumptions C111_unique.
Theorem C111_linear : forall des fs cutoff ftype order a b x y u v, length x = length y ->
  filter_sos des (D1 x) fs cutoff ftype order = Ok (D1 u) -> filter_sos des (D1 y) fs cutoff ftype order = Ok (D1 v) ->
  filter_sos des (D1 (lin_comb a x b y)) fs cutoff ftype order = Ok (D1 (lin_comb a u b v)).
Proof. exact filter_linear. Qed.
Print Assumptions C111_linear.
Theorem C111_causal : forall des fs cutoff ftype order x x' u, filter_sos des (D1 (x ++ x')) fs cutoff ftype order = Ok (D1 u) ->
  filter_sos des (D1 x) fs cutoff ftype order = Ok (D1 (firstn (length x) u)).
Proof. exact filter_causal. Qed.
Print Assumptions C111_causal.
Theorem C111_delay : forall des fs cutoff ftype order x u k, filter_sos des (D1 x) fs cutoff ftype order = Ok (D1 u) ->
  filter_sos des (D1 (repeat C0 k ++ x)) fs cutoff ftype order = Ok (D1 (repeat C0 k ++ u)).
Proof. exact filter_delay. Qed.
Print Assumptions C111_delay.
Example C111_case : filter_sos (fun _ _ _ _ => Ok [mk_sec (1 / 2) 0 0 (- (1 / 2)) 0]) (D1 [(2, 0); (0, 2); (0, 0)]) 1 (1 / 4) Butter 1 =
  Ok (D1 [(1, 0); (1 / 2, 1); (1 / 4, 1 / 2)]).
Proof. exact filter_case. Qed.
