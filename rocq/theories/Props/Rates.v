(** Properties C69, C70, C92, C93: theoretical error rates and probabilistic shaping. *)
From Coq Require Import List ZArith Bool Reals Arith Lia Lra Sorting.Sorted.
From Verif Require Import Common.Py Common.Cplx Common.SumX Common.Erf Model.Helpers Model.Rates Spec.FilterSpec Proofs.RatesP.
Import ListNotations.
Local Open Scope R_scope.

(** ** C69 *)
Theorem C69_form : forall snr M, 1 < M -> 0 <= snr ->
  ser_vs_es_over_n0_qam snr M = 1 - (1 - pam_error snr M) ^ 2 /\ 0 < pam_error snr M < 1 /\ 0 < ser_vs_es_over_n0_qam snr M < 1.
Proof. intros snr M H _. split; [exact (ser_form snr M H)|]. split; [exact (p_range snr M H)|exact (ser_range snr M H)]. Qed.
Print Assumptions C69_form.
(** without signal a symbol is guessed; more power means fewer errors *)
Theorem C69_guess : forall M, 1 < M -> ser_vs_es_over_n0_qam 0 M = 1 - 1 / M.
Proof. exact ser_zero. Qed.
Print Assumptions C69_guess.
Theorem C69_decreasing : forall s1 s2 M, 1 < M -> 0 <= s1 -> s1 < s2 -> ser_vs_es_over_n0_qam s2 M < ser_vs_es_over_n0_qam s1 M.
Proof. exact ser_decr. Qed.
Print Assumptions C69_decreasing.
Example C69_case : ser_vs_es_over_n0_qam 0 16 = 15 / 16.
Proof. rewrite C69_guess by lra. lra. Qed.

(** ** C92 *)
(** the bit error rate is the error probability of one dimension, spread over its log2(sqrt M) bits *)
Theorem C92_ber : forall snr M, 1 < M -> 0 <= snr -> ber_vs_es_over_n0_qam snr M * log2 (sqrt M) = pam_error snr M.
Proof. exact ber_pam. Qed.
Print Assumptions C92_ber.
Theorem C92_ser : forall snr M, 1 < M -> 0 <= snr ->
  ser_vs_es_over_n0_qam snr M = 1 - (1 - log2 M / 2 * ber_vs_es_over_n0_qam snr M) ^ 2.
Proof. exact ber_ser. Qed.
Print Assumptions C92_ser.
Theorem C92_range : forall snr M, 4 <= M -> 0 <= snr -> 0 < ber_vs_es_over_n0_qam snr M <= 1 / 2.
Proof. exact ber_range. Qed.
Print Assumptions C92_range.
Theorem C92_decreasing : forall s1 s2 M, 1 < M -> 0 <= s1 -> s1 < s2 -> ber_vs_es_over_n0_qam s2 M < ber_vs_es_over_n0_qam s1 M.
Proof. exact ber_decr. Qed.
Print Assumptions C92_decreasing.
(** an EVM of e dB is an SNR of -e dB *)
Theorem C92_evm : forall e M, 1 < M -> ber_vs_evm_qam e M = ber_vs_es_over_n0_qam (dB2lin (- e)) M.
Proof. exact ber_evm. Qed.
Print Assumptions C92_evm.
Theorem C92_psk : forall s1 s2 M, 1 < M -> 0 <= s1 -> s1 < s2 ->
  0 < ser_vs_es_over_n0_psk s2 M < ser_vs_es_over_n0_psk s1 M /\ ser_vs_es_over_n0_psk s1 M <= 1.
Proof. intros s1 s2 M H H0 H1. split; [split; [apply psk_range; lra|apply psk_decr; assumption]|apply psk_range; lra]. Qed.
Print Assumptions C92_psk.
Theorem C92_pam : forall snr, 0 <= snr -> ser_vs_es_over_n0_4pam snr = pam_error (2 * snr) 16 /\ 0 < ser_vs_es_over_n0_4pam snr <= 3 / 4.
Proof. intros snr H. split; [exact (pam_16 snr)|exact (pam_range snr)]. Qed.
Print Assumptions C92_pam.
Example C92_case : ber_vs_es_over_n0_qam 0 4 = 1 / 2 /\ ser_vs_es_over_n0_4pam 0 = 3 / 4.
Proof. exact rates_zero. Qed.

(** ** C70 *)
(** the levels are the different real parts of the alphabet *)
Theorem C70_levels : forall symbols nu symbs px, cal_ps_probablts symbols nu = (symbs, px) ->
  StronglySorted Rlt symbs /\ (forall s, In s symbs <-> exists z, In z symbols /\ fst z = s) /\ length px = length symbs.
Proof. exact ps_support. Qed.
Print Assumptions C70_levels.
Theorem C70_distribution : forall symbols nu symbs px, symbols <> [] -> cal_ps_probablts symbols nu = (symbs, px) ->
  Forall (fun p => 0 < p) px /\ Rsum px = 1.
Proof. exact ps_distribution. Qed.
Print Assumptions C70_distribution.
Theorem C70_levels_power : forall symbols nu symbs px i j si sj pi pj, symbols <> [] -> cal_ps_probablts symbols nu = (symbs, px) ->
  nth_error symbs i = Some si -> nth_error symbs j = Some sj -> nth_error px i = Some pi -> nth_error px j = Some pj ->
  (Rabs si = Rabs sj -> pi = pj) /\ (0 < nu -> Rabs si < Rabs sj -> pj < pi) /\ (nu = 0 -> pi = pj).
Proof. exact ps_single. Qed.
Print Assumptions C70_levels_power.
(** a symbol with real part level i and imaginary part level j has probability p_i p_j *)
Theorem C70_symbols_power : forall symbols nu symbs px i j k l si sj sk sl pi pj pk pl,
  symbols <> [] -> cal_ps_probablts symbols nu = (symbs, px) ->
  nth_error symbs i = Some si -> nth_error symbs j = Some sj -> nth_error symbs k = Some sk -> nth_error symbs l = Some sl ->
  nth_error px i = Some pi -> nth_error px j = Some pj -> nth_error px k = Some pk -> nth_error px l = Some pl ->
  (si ^ 2 + sj ^ 2 = sk ^ 2 + sl ^ 2 -> pi * pj = pk * pl) /\
  (0 < nu -> si ^ 2 + sj ^ 2 < sk ^ 2 + sl ^ 2 -> pk * pl < pi * pj).
Proof. exact ps_power. Qed.
Print Assumptions C70_symbols_power.
Example C70_case : cal_ps_probablts [(1, 1); (-1, 1); (1, -1); (-1, -1)] 2 = ([-1; 1], [1 / 2; 1 / 2]).
Proof. exact ps_qpsk. Qed.

(** ** C93 *)
(** without normalisation the drawn levels are combined *)
Theorem C93_draw_partial : forall symbs pre pim re im, fancy_get pre symbs = Ok re -> fancy_get pim symbs = Ok im ->
  generate_ps_symbols symbs pre pim false = Ok (combine re im).
Proof. exact ps_draw. Qed.
Print Assumptions C93_draw_partial.
(** the default fails *)
Theorem C93_default_refuted : ~ exists symbs pre pim out, generate_ps_symbols symbs pre pim true = Ok out.
Proof. exact ps_default. Qed.
Print Assumptions C93_default_refuted.
Example C93_case : generate_ps_symbols [-1; 1] [0; 1]%nat [1; 1]%nat false = Ok [(-1, 1); (1, 1)] /\
  generate_ps_symbols [-1; 1] [0; 1]%nat [1; 1]%nat true = Err NameError.
Proof. split; reflexivity. Qed.
