(** theory.py: error-rate formulas and probabilistic shaping; core/special_fcts.py q_function.
    [M] and the SNR are real numbers; the functions work element-wise on arrays. *)
From Coq Require Import List ZArith Arith Bool Reals.
From Verif Require Import Common.Py Common.Cplx Common.Erf Model.Helpers Model.Lut.
Import ListNotations.
Local Open Scope R_scope.

Definition log2 (x : R) : R := ln x / ln 2.
(** core/special_fcts.py 206-215, q_function *)
Definition q_function (x : R) : R := / 2 * erfc (x / sqrt 2).
(** theory.py 34-38, ser_vs_es_over_n0_qam *)
Definition ser_vs_es_over_n0_qam (snr M : R) : R :=
  2 * (1 - 1 / sqrt M) * erfc (sqrt (3 * snr / (2 * (M - 1))))
  - (1 - 2 / sqrt M + 1 / M) * erfc (sqrt (3 * snr / (2 * (M - 1)))) ^ 2.
(** theory.py 41-69, ber_vs_evm_qam *)
Definition ber_vs_evm_qam (evm_dB M : R) : R :=
  let L := sqrt M in let evm := dB2lin evm_dB in
  2 * (1 - 1 / L) / log2 L * q_function (sqrt (3 * log2 L / (L ^ 2 - 1) * (2 / (evm * log2 M)))).
(** theory.py 72-97, ber_vs_es_over_n0_qam *)
Definition ber_vs_es_over_n0_qam (snr M : R) : R :=
  let L := sqrt M in
  2 * (1 - 1 / L) / log2 L * q_function (sqrt (3 * log2 L / (L ^ 2 - 1) * (2 * snr / log2 M))).
(** theory.py 99-102, ser_vs_es_over_n0_psk *)
Definition ser_vs_es_over_n0_psk (snr M : R) : R := erfc (sqrt snr * sin (PI / M)).
(** theory.py 105-108, ser_vs_es_over_n0_4pam *)
Definition ser_vs_es_over_n0_4pam (snr : R) : R := 3 / 4 * erfc (sqrt (snr / 5)).

(** theory.py 195-222, cal_ps_probablts *)
Definition ps_weight (nu s : R) : R := exp (- nu * Rabs s ^ 2).
Definition cal_ps_probablts (symbols : list C) (nu : R) : list R * list R :=
  let symbs := unique (map fst symbols) in
  let div_factor := fold_left (fun acc s => acc + ps_weight nu s) symbs 0 in
  (symbs, map (fun s => ps_weight nu s / div_factor) symbs).
(** theory.py 224-248, generate_ps_symbols.  [pick_re], [pick_im]: the indices np.random.choice
    draws.  [utils] is not imported in theory.py. *)
Definition generate_ps_symbols (symbs : list R) (pick_re pick_im : list nat) (normalize : bool) : result (list C) :=
  let! re := fancy_get pick_re symbs in
  let! im := fancy_get pick_im symbs in
  if normalize then Err NameError else Ok (combine re im).
