(** Property C125: the response matrices of H_PMD and the einsum version of the PMD filter. *)
From Coq Require Import List ZArith Arith Bool Reals Lia Lra.
From Verif Require Import Common.Py Common.Cplx Model.Impair Model.Pmd Spec.PmdS Spec.ImpairSpec Proofs.PmdP.
Import ListNotations.
Local Open Scope R_scope.

(** C125.  Full statement: the matrix of every frequency is unitary, and _applyPMD_einsum with the
    matrices of H_PMD gives the field of _applyPMD_dot, without loss of energy.  The second part holds
    for an axis angle of zero only. *)
Theorem C125_unitary : forall theta t om k w, nth_error om k = Some w ->
  let (H, h3) := H_PMD theta t om in exists a b c d,
  nth_error (m00 H) k = Some a /\ nth_error (m01 H) k = Some b /\ nth_error (m10 H) k = Some c /\ nth_error (m11 H) k = Some d /\
  unitary2 a b c d.
Proof. exact H_PMD_matrix. Qed.
Print Assumptions C125_unitary.
Theorem C125_axis_zero_partial : forall x y t om, length x = length om -> length y = length om ->
  let (H, h3) := H_PMD 0 t om in applyPMD_einsum [x; y] H h3 = applyPMD_dot [x; y] 0 t om.
Proof. exact einsum_axis_zero. Qed.
Print Assumptions C125_axis_zero_partial.
(** at 45 degrees and without delay the first mode is lost *)
Theorem C125_energy_refuted : forall x om, length x = length om -> (exists z, In z x /\ z <> C0) ->
  let (H, h3) := H_PMD (PI / 4) 0 om in exists out, applyPMD_einsum [x; silent (length x)] H h3 = Ok out /\
  field_energy out = 0 /\ 0 < field_energy [x; silent (length x)] /\
  applyPMD_dot [x; silent (length x)] (PI / 4) 0 om = Ok [x; silent (length x)].
Proof. exact einsum_energy_lost. Qed.
Print Assumptions C125_energy_refuted.
(** the product h3*H is the delay along the observed axes, whatever the angle of the principal axis *)
Theorem C125_axis_refuted : forall theta t om k w, nth_error om k = Some w ->
  let (H, h3) := H_PMD theta t om in exists a b c d,
  nth_error (m00 H) k = Some a /\ nth_error (m01 H) k = Some b /\ nth_error (m10 H) k = Some c /\ nth_error (m11 H) k = Some d /\
  Cadd (Cscal (m00 h3) a) (Cscal (m01 h3) c) = Cexpi (- (w * t / 2)) /\ Cadd (Cscal (m00 h3) b) (Cscal (m01 h3) d) = C0 /\
  Cadd (Cscal (m10 h3) a) (Cscal (m11 h3) c) = C0 /\ Cadd (Cscal (m10 h3) b) (Cscal (m11 h3) d) = Cexpi (w * t / 2).
Proof. exact H_PMD_axis_lost. Qed.
Print Assumptions C125_axis_refuted.

Example C125_case : let x := [(1, 0); (2, 1)] : list C in length x = length [0; 1] /\ (exists z, In z x /\ z <> C0) /\ nth_error [0; 1] 1 = Some 1.
Proof.
  intros x. split; [reflexivity|]. split; [|reflexivity]. exists (1, 0). split; [now left|]. intros K.
  assert (W : fst (1, 0) = fst C0) by congruence. cbn in W. lra.
Qed.
