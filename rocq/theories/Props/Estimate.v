(** Properties C99-C105: blind estimators and two-stage phase recovery. *)
From Coq Require Import String List ZArith Reals Bool Arith Lia Lra.
From Verif Require Import Common.Py Common.Cplx Common.Angle Model.Constellation Model.Sync Model.Quality Model.Phase Model.Estimate
  Spec.Geometry Spec.EstimateS Spec.Equal Spec.PhaseSpec Spec.TwoStageS
  Proofs.EstimateP Proofs.FreqP Proofs.PhaseQ Proofs.TwoStageP Proofs.PartitionP Proofs.EstimateX.
Import ListNotations.
Open Scope string_scope.
Open Scope list_scope.
Open Scope R_scope.

(** C99.  Signal power S and noise power N enter the moments of a signal with circular Gaussian noise as
    below; then the estimates are exact, for every order of the constellation. *)
Theorem C99_snr : forall k e S N, (1 <= k)%nat -> e <> [] -> 0 <= S -> 0 < N -> moment2 e = S + N ->
  moment4 e = kurtosis (map ZtoC (cal_symbols_qam k)) * S ^ 2 + 4 * S * N + 2 * N ^ 2 ->
  cal_snr_qam e k = Some (S / N).
Proof. exact snr_exact'. Qed.
Print Assumptions C99_snr.
Theorem C99_power : forall k e S N, (1 <= k)%nat -> e <> [] -> 0 < S -> 0 <= N -> moment2 e = S + N ->
  moment4 e = kurtosis (map ZtoC (cal_symbols_qam k)) * S ^ 2 + 4 * S * N + 2 * N ^ 2 ->
  cal_s0 e k = Some S.
Proof. exact s0_exact'. Qed.
Print Assumptions C99_power.
(** no noise: the ratio is a division by zero *)
Theorem C99_noise_free : forall k e S, (1 <= k)%nat -> e <> [] -> 0 < S -> moment2 e = S ->
  moment4 e = kurtosis (map ZtoC (cal_symbols_qam k)) * S ^ 2 -> cal_snr_qam e k = None /\ cal_s0 e k = Some S.
Proof. exact snr_noise_free'. Qed.
Print Assumptions C99_noise_free.
(** the fourth moments at unit power that the estimate uses *)
Theorem C99_square : forall h, (1 <= h)%nat ->
  kurtosis (map ZtoC (cal_symbols_qam (2 * h))) = (7 * 4 ^ h - 13) / (5 * (4 ^ h - 1)).
Proof. exact square_kurtosis. Qed.
Print Assumptions C99_square.
Theorem C99_cross : forall n, (2 <= n)%nat ->
  kurtosis (map ZtoC (cal_symbols_qam (2 * n + 1)))
  = (3251 * (4 ^ (n - 1)) ^ 2 - 1240 * 4 ^ (n - 1) + 104) / 90 / ((31 * 4 ^ (n - 1) - 4) / 6) ^ 2.
Proof. exact cross_kurtosis. Qed.
Print Assumptions C99_cross.
Example C99_four_samples : cal_snr_qam [(1 + sqrt 3, 0); (0, 1 - sqrt 3); (- (1 + sqrt 3), 0); (0, sqrt 3 - 1)] 2 = Some (2 / 2).
Proof. exact snr_example. Qed.

(** C100.  Symbols w around the positive real axis, turned by multiples of a quarter turn and an eighth
    turn: the estimate is that of S/N + 1, with S the squared modulus of the mean and N the variance. *)
Theorem C100_blind_partial : forall ms ws, length ms = length ws ->
  (forall w, In w ws -> w <> C0 /\ - (PI / 4) < Carg w <= PI / 4) -> 0 < variance ws ->
  cal_snr_blind_qpsk (map (fun p => (Cexpi (PI / 4) * (Cpow Ci (fst p) * snd p))%C) (combine ms ws))
  = Some (10 * (ln (Cnorm2 (Cmean ws) / variance ws + 1) / ln 10)).
Proof. exact blind_qpsk. Qed.
Print Assumptions C100_blind_partial.
Theorem C100_blind_refuted : forall ms ws, length ms = length ws ->
  (forall w, In w ws -> w <> C0 /\ - (PI / 4) < Carg w <= PI / 4) -> 0 < variance ws -> Cmean ws <> C0 ->
  exists v, cal_snr_blind_qpsk (map (fun p => (Cexpi (PI / 4) * (Cpow Ci (fst p) * snd p))%C) (combine ms ws)) = Some v /\
    10 * (ln (Cnorm2 (Cmean ws) / variance ws) / ln 10) < v.
Proof. exact blind_above. Qed.
Print Assumptions C100_blind_refuted.
Example C100_two_symbols : cal_snr_blind_qpsk [(Cexpi (PI / 4) * (Cpow Ci 0 * (1, 0)))%C; (Cexpi (PI / 4) * (Cpow Ci 3 * (3, 0)))%C] = Some (10 * (ln (4 / 1 + 1) / ln 10)).
Proof. exact blind_example. Qed.

(** C101.  cal_ser_qam never returns a symbol error rate. *)
Theorem C101_ser_refuted : forall rx tx M method, exists e, cal_ser_qam rx tx M method = Err e.
Proof. exact ser_fails. Qed.
Print Assumptions C101_ser_refuted.
Theorem C101_errors_partial : forall rx tx M, cal_ser_qam rx tx M "pyx" = Err ValueError /\ cal_ser_qam rx tx M "pyt" = Err TypeError.
Proof. exact ser_errors. Qed.
Print Assumptions C101_errors_partial.

(** C102.  Offsets on the frequency grid are found exactly; m is the transform size asked for, n the one used. *)
Theorem C102_grid_partial : forall os m n sig fs, next_pow2 m n -> (2 <= m)%nat -> (1 <= os)%nat ->
  Forall2 (fun row f => (2 <= length row)%nat /\ exists a (b : Z), a <> C0 /\ qpsk_offset a f os row /\
     f = IZR b * INR os / (4 * INR n) /\ (- Z.of_nat n <= 2 * b < Z.of_nat n)%Z) sig fs ->
  find_freq_offset sig os false m = Ok fs /\ find_freq_offset sig os true m = Ok (repeat (Rmean fs) (length sig)).
Proof. exact find_exact. Qed.
Print Assumptions C102_grid_partial.
(** any offset: within half a grid step up to multiples of a quarter of the sampling rate *)
Theorem C102_near_partial : forall os m n sig fs, next_pow2 m n -> (2 <= m)%nat -> (1 <= os)%nat ->
  Forall2 (fun row f => (n <= length row)%nat /\ exists a, a <> C0 /\ qpsk_offset a f os row) sig fs ->
  exists vs, find_freq_offset sig os false m = Ok vs /\ find_freq_offset sig os true m = Ok (repeat (Rmean vs) (length sig)) /\
    Forall2 (fun v f => - (INR os / 8) <= v <= INR os / 8 /\
      (exists s : Z, Rabs (v - f - IZR s * (INR os / 4)) <= INR os / (8 * INR n)) /\
      (- (INR os / 8) <= f < INR os / 8 - INR os / (8 * INR n) -> Rabs (v - f) <= INR os / (8 * INR n))) vs fs.
Proof. exact find_near. Qed.
Print Assumptions C102_near_partial.
(** compensating with the offsets leaves none *)
Theorem C102_compensated_partial : forall os sig fs, (1 <= os)%nat -> Forall2 (fun row f => exists a, qpsk_offset a f os row) sig fs ->
  exists out, comp_freq_offset sig fs (INR os) = Ok out /\ length out = length sig /\
  forall k row row' f a, nth_error sig k = Some row -> nth_error out k = Some row' -> nth_error fs k = Some f -> qpsk_offset a f os row ->
    length row' = length row /\ exists a', Cabs a' = Cabs a /\ qpsk_offset a' 0 os row'.
Proof. exact comp_found. Qed.
Print Assumptions C102_compensated_partial.
(** a quarter of the sampling rate is taken for no offset *)
Theorem C102_alias_refuted : forall os m n row a, next_pow2 m n -> (2 <= m)%nat -> (1 <= os)%nat -> (2 <= length row)%nat -> a <> C0 ->
  qpsk_offset a (INR os / 4) os row -> find_freq_offset [row] os false m = Ok [0].
Proof. exact alias_found. Qed.
Print Assumptions C102_alias_refuted.
Example C102_quarter : find_freq_offset [[C1; Ci; (- C1)%C; (- Ci)%C]; [C1; C1; (- C1)%C; Ci]] 1 false 4 = Ok [0; 0].
Proof. exact quarter_example. Qed.
Example C102_eighth : find_freq_offset [[C1; Cexpi (PI / 4); Ci; Cexpi (3 * (PI / 4))]] 1 false 4 = Ok [- (1 / 8)].
Proof. exact eighth_example. Qed.

(** C103.  The two-stage search, interpreted version: a first search over M test phases, then one over B
    offsets around the phase found; the phase trace is unwrapped over quarter turns. *)
Theorem C103_python_partial : forall E M B N symbols, (1 <= M)%nat -> (1 <= B)%nat -> (1 <= N)%nat -> symbols <> [] ->
  exists out ph th, bps_twostage E M symbols N B "py" = Ok (out, ph) /\ rotated_by (fun k n => cell 0 ph k n) E out /\
  forall k row, nth_error E k = Some row -> exists pr c1 c2, nth_error ph k = Some pr /\
    decision_costs row (bps_angles M) M symbols c1 /\ fine_costs row (th k) M B symbols c2 /\
    coarse_phases M (length row) N (fun m i => first_min (window_cost c1 N m) M i) (th k) /\
    two_stage_trace M B (length row) N (fun m j => first_min (window_cost c2 N m) B j) (th k) pr.
Proof. exact twostage_py. Qed.
Print Assumptions C103_python_partial.
(** compiled version: costs are capped and windows costing 1000 or more are skipped *)
Theorem C103_compiled_partial : forall E M B N symbols, (1 <= M)%nat -> (1 <= B)%nat -> symbols <> [] ->
  exists out ph th, bps_twostage E M symbols N B "pyt" = Ok (out, ph) /\ rotated_by (fun k n => cell 0 ph k n) E out /\
  forall k row, nth_error E k = Some row -> exists pr c1 c2, nth_error ph k = Some pr /\
    decision_costs row (bps_angles M) M symbols c1 /\ fine_costs row (th k) M B symbols c2 /\
    coarse_phases M (length row) N (fun m i => chosen (window_cost (capped c1) N m) M 1000 0 i) (th k) /\
    two_stage_trace M B (length row) N (fun m j => chosen (window_cost (capped c2) N m) B 1000 0 j) (th k) pr.
Proof. exact twostage_pyt. Qed.
Print Assumptions C103_compiled_partial.
(** at most half a step of the first search away from the result of the one-stage search *)
Theorem C103_near_partial : forall E M B N symbols method o1 p1 o2 p2, (1 <= M)%nat -> (1 <= B)%nat -> (1 <= N)%nat -> symbols <> [] ->
  method = "py" \/ method = "pyt" ->
  core_bps E M symbols N method = Ok (o1, p1) -> bps_twostage E M symbols N B method = Ok (o2, p2) ->
  forall k row m, nth_error E k = Some row -> interior (length row) N m ->
  exists x, Rabs x <= PI / (4 * INR M) /\ turns (4 * (cell 0 p2 k m - cell 0 p1 k m - x)).
Proof. exact twostage_near. Qed.
Print Assumptions C103_near_partial.
(** an odd number of offsets recovers symbols turned by a test phase *)
Theorem C103_odd_partial : forall tx M h N k0 symbols method, (1 <= N)%nat -> (k0 < M)%nat -> (1 <= h)%nat -> quarter_symmetric symbols -> symbols <> [] ->
  (forall row s, In row tx -> In s row -> In s symbols) -> method = "py" \/ method = "pyt" ->
  exists out ph, bps_twostage (map (map (fun s => s * Cexpi (- bps_angle M k0)))%C tx) M symbols N (2 * h + 1) method = Ok (out, ph) /\
    length out = length tx /\
    forall k row, nth_error tx k = Some row -> exists row', nth_error out k = Some row' /\ length row' = length row /\
      forall m s, interior (length row) (2 * N) m -> nth_error row' m = Some s -> In s symbols.
Proof. exact odd_recovers. Qed.
Print Assumptions C103_odd_partial.
(** an even number, as the default of 4, does not: the first phase is right and the second search leaves it *)
Theorem C103_even_refuted : forall M h N L method, (1 <= M)%nat -> (1 <= h)%nat -> (1 <= N)%nat -> method = "py" \/ method = "pyt" ->
  (exists out ph, core_bps [repeat (Cexpi (PI / 4)) L] M [C1; Ci; (- C1)%C; (- Ci)%C] N method = Ok (out, ph) /\
    forall m s, interior L N m -> nth_error (nth 0 out []) m = Some s -> In s [C1; Ci; (- C1)%C; (- Ci)%C]) /\
  exists out ph, bps_twostage [repeat (Cexpi (PI / 4)) L] M [C1; Ci; (- C1)%C; (- Ci)%C] N (2 * h) method = Ok (out, ph) /\
    forall m s, interior L N m -> nth_error (nth 0 out []) m = Some s -> ~ In s [C1; Ci; (- C1)%C; (- Ci)%C].
Proof. exact even_worse. Qed.
Print Assumptions C103_even_refuted.
Example C103_offsets : fine_offset 1 4 1 = - (PI / 12) /\ fine_offset 1 5 2 = 0 /\ interior 3 1 1.
Proof. exact offsets_example. Qed.

(** C104.  Noise-free 16-QAM with its rings in the proportion 1:2:1 (these moments) at any scale and with
    any phases: class 1 are exactly the samples off the middle ring. *)
Theorem C104_rings_partial : forall e a, e <> [] -> 0 < a -> moment2 e = 10 * a ^ 2 -> moment4 e = 132 * a ^ 4 ->
  (forall z, In z e -> Cnorm2 z = 2 * a ^ 2 \/ Cnorm2 z = 10 * a ^ 2 \/ Cnorm2 z = 18 * a ^ 2) ->
  exists mask, partition_16qam e = Some mask /\ Forall2 (fun z b => b = true <-> Cnorm2 z <> 10 * a ^ 2) e mask.
Proof. exact partition_ideal. Qed.
Print Assumptions C104_rings_partial.
(** the second symbol is off the middle ring by a twentieth of the symbol spacing *)
Theorem C104_noise_refuted : exists mask, partition_16qam [(1, 1); (31 / 10, 1); (1, 3); (3, 3)] = Some mask /\ nth 1 mask false = true.
Proof. exact partition_noisy. Qed.
Print Assumptions C104_noise_refuted.
Example C104_alphabet : exists mask, partition_16qam (map (fun z => ZtoC z * Cexpi 1)%C (cal_symbols_qam 4)) = Some mask /\
  Forall2 (fun z b => b = true <-> Cnorm2 z <> 10 * 1 ^ 2) (map (fun z => ZtoC z * Cexpi 1)%C (cal_symbols_qam 4)) mask.
Proof. exact partition_alphabet. Qed.

(** C105.  Every mode is turned back by four times the phase reported for the last mode and half a turn. *)
Theorem C105_rotation_partial : forall E nb out ph, phase_partition_16qam E nb = Ok (out, ph) -> length ph = length E /\ E <> [] /\
  rotated_by (fun _ n => - (4 * cell 0 ph (length E - 1) n + PI)) E out.
Proof. exact partition_rotation. Qed.
Print Assumptions C105_rotation_partial.
(** the reported phases are right up to quarter turns if inner and outer points come in equal numbers and
    the phase is constant over blocks *)
Theorem C105_phase_partial : forall nb E ph out k row a th, phase_partition_16qam E nb = Ok (out, ph) -> nth_error E k = Some row ->
  row <> [] -> 0 < a -> moment2 row = 10 * a ^ 2 -> moment4 row = 164 * a ^ 4 ->
  (forall i z, nth_error row i = Some z -> exists r q, (r ^ 2 = 2 * a ^ 2 \/ r ^ 2 = 18 * a ^ 2) /\ 0 < r /\ z = Cscal r (Cexpi (th (i / nb)%nat + PI / 4 + INR q * (PI / 2)))) ->
  exists pr, nth_error ph k = Some pr /\ length pr = length row /\ forall i p, nth_error pr i = Some p -> turns (4 * (p - th (i / nb)%nat)).
Proof. exact partition_diag_trace. Qed.
Print Assumptions C105_phase_partial.
(** a field with the phase error t comes back with the phase error -3t (and half a turn) *)
Theorem C105_field_refuted : forall t, exists ph,
  phase_partition_16qam [map (fun z => z * Cexpi t)%C [(1, 1); (3, 3)]] 2 = Ok ([map (fun z => z * Cexpi (- (3 * t) - PI))%C [(1, 1); (3, 3)]], [ph]) /\
  length ph = 2%nat /\ forall p, In p ph -> turns (4 * (p - t)).
Proof. exact partition_triples. Qed.
Print Assumptions C105_field_refuted.
(** with a middle-ring sample the reported phase need not be right either: here the true one is 0 *)
Theorem C105_phase_refuted : exists out ph p, phase_partition_16qam [[(1, 1); (3, 1); (1, 3); (3, 3)]] 1 = Ok (out, [ph]) /\
  nth_error ph 1 = Some p /\ ~ turns (4 * p).
Proof. exact partition_middle_wrong. Qed.
Print Assumptions C105_phase_refuted.
