(** Properties C66, C86, C87: analogue front end. *)
From Coq Require Import List ZArith Bool Reals Arith Lia Lra.
From Verif Require Import Common.Py Common.Cplx Common.SumX Common.Dft Model.Helpers Model.Frontend
  Spec.Equal Spec.ImpairSpec Spec.FilterSpec Proofs.FrontendP Proofs.FiltersR.
Import ListNotations.
Local Open Scope R_scope.

(** ** C66 *)
(** what comes back is centred and has uncorrelated parts of equal power, the real part only loses
    its mean *)
Theorem C66_orthogonal_partial : forall signal out, fst (comp_IQ_inbalance signal) = Some out ->
  covIQ (concat out) = 0 /\ varQ (concat out) = varI (concat out) /\ sample_mean (concat out) = C0 /\
  Forall2 (fun row y => map fst y = map (fun z : C => fst z - fst (sample_mean (concat signal))) row) signal out.
Proof. exact iq_out. Qed.
Print Assumptions C66_orthogonal_partial.
(** when something other than nan comes back *)
Theorem C66_domain_partial : forall signal, let x := concat signal in
  (0 < varI x /\ Rabs (covIQ x) < varI x /\ covIQ x * covIQ x < varI x * varQ x) <-> exists out, fst (comp_IQ_inbalance signal) = Some out.
Proof. exact iq_ok. Qed.
Print Assumptions C66_domain_partial.
(** signals of full rank that come back as nan *)
Theorem C66_rank_refuted : ~ forall signal, let x := concat signal in 0 < varI x -> covIQ x * covIQ x < varI x * varQ x ->
  exists out, fst (comp_IQ_inbalance signal) = Some out.
Proof.
  intros H. destruct iq_lost_moments as [A [B [D _]]]. destruct (H iq_lost) as [out E].
  - cbv zeta. rewrite A. lra.
  - cbv zeta. rewrite A, B, D. lra.
  - rewrite iq_lost_none in E. discriminate.
Qed.
Print Assumptions C66_rank_refuted.
(** the argument is changed unless its mean is zero *)
Theorem C66_argument_partial : forall signal, snd (comp_IQ_inbalance signal) = signal <-> concat signal = [] \/ sample_mean (concat signal) = C0.
Proof. exact iq_arg_same. Qed.
Print Assumptions C66_argument_partial.
Theorem C66_argument_refuted : ~ forall signal, snd (comp_IQ_inbalance signal) = signal.
Proof.
  intros H. specialize (H iq_offset). rewrite (proj1 iq_offset_changed) in H.
  injection H as H1 _ _ _ _ _ _ _. lra.
Qed.
Print Assumptions C66_argument_refuted.
Example C66_case : snd (comp_IQ_inbalance [[(2, 1); (0, 1); (1, 2); (1, 0)]]) = [[(1, 0); (- 1, 0); (0, 1); (0, - 1)]] /\
  exists out, fst (comp_IQ_inbalance [[(2, 1); (0, 1); (1, 2); (1, 0)]]) = Some out.
Proof. exact iq_offset_changed. Qed.

(** ** C86 *)
Theorem C86_orthogonal_partial : forall E os out, (1 <= os)%nat -> orthonormalize_signal E os = Ok out ->
  length out = length E /\
  forall m x y, nth_error E m = Some x -> nth_error out m = Some (Some y) ->
    length y = length x /\ covIQ y = 0 /\
    (forall t, every os y t -> sample_mean t = C0 /\ sample_power t = 1) /\
    varQ y * (varI x * varQ x) = varI y * (varI x * varQ x - covIQ x * covIQ x).
Proof. exact ortho_all. Qed.
Print Assumptions C86_orthogonal_partial.
(** full rank suffices at one sample per symbol *)
Theorem C86_domain_partial : forall x, 0 < varI x -> 0 < varQ x -> exists y, orthonormalize_signal [x] 1 = Ok [Some y].
Proof. exact ortho_dom. Qed.
Print Assumptions C86_domain_partial.
(** the orthogonalised imaginary part is divided by its power before orthogonalisation *)
Theorem C86_equal_power_refuted : ~ forall x y, 0 < varI x -> 0 < varQ x -> covIQ x * covIQ x < varI x * varQ x ->
  orthonormalize_signal [x] 1 = Ok [Some y] -> varQ y = varI y.
Proof.
  intros H. destruct skewed_out as [y [E [_ [V P]]]]. destruct skewed_moments as [A [B D]].
  specialize (H skewed y). rewrite A, B, D in H. specialize (H ltac:(lra) ltac:(lra) ltac:(lra) E). lra.
Qed.
Print Assumptions C86_equal_power_refuted.
Theorem C86_step : forall E, orthonormalize_signal E 0 = Err ValueError.
Proof. intros E. reflexivity. Qed.
Print Assumptions C86_step.
Example C86_case : exists y, orthonormalize_signal [[(1, 1); (- 1, - 1); (1, 0); (- 1, 0)]] 1 = Ok [Some y] /\ covIQ y = 0 /\ varI y = 2 * varQ y /\ 0 < varI y.
Proof. exact skewed_out. Qed.

(** ** C87 *)
(** a delay by half the product of samples and rate: [sampling_rate/2] is passed on as the sample
    spacing *)
Theorem C87_delay_partial : forall sig delay sr d, sr <> 0 -> 2 * delay = IZR d * sr ->
  comp_rf_delay sig delay sr = map (roll d) sig.
Proof. exact rf_delay_all. Qed.
Print Assumptions C87_delay_partial.
Theorem C87_delay_refuted : ~ forall sig delay sr d, 0 < sr -> delay * sr = IZR d -> comp_rf_delay sig delay sr = map (roll d) sig.
Proof.
  intros H. specialize (H [[1; 0; 0]] 1 1 1%Z ltac:(lra) ltac:(lra)). rewrite delay_two in H. cbn in H. injection H as H1 _. lra.
Qed.
Print Assumptions C87_delay_refuted.
(** one second at one sample per second moves the pulse by two samples *)
Example C87_case : comp_rf_delay [[1; 0; 0]] 1 1 = [[0; 0; 1]].
Proof. exact delay_two. Qed.
