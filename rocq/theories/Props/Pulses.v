(** Properties C126-C127: the pulse shapes of core/special_fcts.py. *)
From Coq Require Import Reals ZArith Lia Lra.
From Verif Require Import Common.Py Model.Pulses Spec.PulseS Proofs.PulsesP.
Local Open Scope R_scope.

(** C126.  Full statement: gauss, sech and supergauss of any positive order are symmetric about x0 with
    maximum A, ttanh rises through zero at x0 between -A and A.  False for supergauss of an order that
    is not an integer. *)
Theorem C126_gauss : forall A x0 w, 0 < A -> w <> 0 -> bell (fun x => gauss x A x0 w) A x0 /\
  forall d, gauss (x0 + d) A x0 w = Some (A * exp (- (d / w) ^ 2 / 2)).
Proof. exact gauss_bell. Qed.
Print Assumptions C126_gauss.
Theorem C126_sech : forall A x0 w, 0 < A -> w <> 0 -> bell (fun x => sech x A x0 w) A x0 /\
  forall d, sech (x0 + d) A x0 w = Some (2 * A / (exp (d / w) + exp (- (d / w)))).
Proof. exact sech_bell. Qed.
Print Assumptions C126_sech.
Theorem C126_ttanh : forall A x0 w, 0 < A -> 0 < w -> step_up (fun x => ttanh x A x0 w) A x0 /\ ttanh x0 A x0 w = Some 0.
Proof. exact ttanh_step. Qed.
Print Assumptions C126_ttanh.
Theorem C126_supergauss_partial : forall A x0 w n, 0 < A -> w <> 0 -> bell (fun x => supergauss x A x0 w (INR (S n))) A x0 /\
  (forall x, supergauss x A x0 w 1 = gauss x A x0 w) /\
  supergauss (x0 + w) A x0 w (INR (S n)) = Some (A * exp (- (1 / 2))).
Proof. exact supergauss_bell. Qed.
Print Assumptions C126_supergauss_partial.
Theorem C126_supergauss_refuted : forall A x0 w, 0 < A -> 0 < w ->
  supergauss (x0 - w) A x0 w (1 / 2) = Some (A * exp (1 / 2)) /\ A < A * exp (1 / 2) /\
  supergauss (x0 - w) A x0 w (3 / 4) = None.
Proof. exact supergauss_left. Qed.
Print Assumptions C126_supergauss_refuted.

Example C126_case : gauss 3 2 1 1 = Some (2 * exp (- 2)) /\ ttanh 1 2 1 3 = Some 0.
Proof.
  split; [|apply C126_ttanh; lra]. destruct (C126_gauss 2 1 1 ltac:(lra) ltac:(lra)) as [_ H]. specialize (H 2).
  replace (1 + 2) with 3 in H by ring. rewrite H. replace (- (2 / 1) ^ 2 / 2) with (- 2) by field. reflexivity.
Qed.

(** C127.  Full statement: rcos_time is even, one at zero and zero at all other multiples of the symbol
    period (no intersymbol interference), for every roll-off.  At |t| = T/(2 beta) the code divides zero
    by zero; for roll-offs 1/(2k) that is a multiple of the period. *)
Theorem C127_even : forall t beta T, rcos_time (- t) beta T = rcos_time t beta T.
Proof. exact rcos_even. Qed.
Print Assumptions C127_even.
Theorem C127_nyquist_partial : forall beta T k, T <> 0 -> 2 * beta * IZR k <> 1 -> 2 * beta * IZR k <> -1 ->
  rcos_time (IZR k * T) beta T = Some (if (k =? 0)%Z then 1 else 0).
Proof. exact rcos_nyquist. Qed.
Print Assumptions C127_nyquist_partial.
Theorem C127_singular_refuted : forall beta T, 0 < beta -> T <> 0 -> rcos_time (T / (2 * beta)) beta T = None.
Proof. exact rcos_singular. Qed.
Print Assumptions C127_singular_refuted.

Example C127_case : rcos_time 6 (1 / 4) 2 = Some 0 /\ rcos_time 0 (1 / 4) 2 = Some 1 /\ rcos_time 2 (1 / 2) 2 = None.
Proof.
  split; [|split].
  - replace 6 with (IZR 3 * 2) by lra. rewrite C127_nyquist_partial; [reflexivity|lra|lra|lra].
  - replace 0 with (IZR 0 * 2) at 1 by lra. rewrite C127_nyquist_partial; [reflexivity|lra|lra|lra].
  - replace 2 with (2 / (2 * (1 / 2))) at 1 by field. apply C127_singular_refuted; lra.
Qed.
