(** PSK alphabets. *)
From Coq Require Import List ZArith NArith Bool Lia Permutation FinFun ZifyBool ZifyNat ZifyN Reals Lra Psatz Arith.
From Verif Require Import Common.Py Common.ListX Common.Cplx Model.Gray Model.Constellation Model.Decision
  Spec.Bits Spec.Geometry Proofs.GrayP Proofs.ConstP Proofs.DecisionP Proofs.MapP Proofs.QamP.
Import ListNotations.
Local Open Scope R_scope.

Lemma sin_zero_small x : - PI < x < PI -> sin x = 0 -> x = 0.
Proof.
  intros [H1 H2] Hs. destruct (Rtotal_order x 0) as [H|[H|H]]; [|assumption|].
  - assert (0 < sin (- x)) by (apply sin_gt_0; lra). rewrite sin_neg in *; lra.
  - assert (0 < sin x) by (apply sin_gt_0; lra). lra.
Qed.

Lemma Cexpi_inj a b : Rabs (a - b) < 2 * PI -> Cexpi a = Cexpi b -> a = b.
Proof.
  intros Hab E. assert (Hc : cos (a - b) = 1).
  { unfold Cexpi in E; injection E as E1 E2. rewrite cos_minus, E1, E2.
    pose proof (sin2_cos2 b) as H; unfold Rsqr in H; lra. }
  apply Rabs_def2 in Hab. set (h := (a - b) / 2).
  assert (Hh : a - b = 2 * h) by (unfold h; lra).
  rewrite Hh in Hc. rewrite cos_2a_sin in Hc.
  assert (Hs : sin h = 0) by nra.
  apply sin_zero_small in Hs; [lra|]. lra.
Qed.

Lemma psk_phase_diff m i j : (0 < m)%nat -> psk_phase m i - psk_phase m j = (INR i - INR j) * (2 * PI / INR m).
Proof.
  intros Hm; assert (INR m <> 0) by (apply not_0_INR; lia). unfold psk_phase. destruct (m =? 4)%nat; field; assumption.
Qed.

Lemma psk_phase_inj m i j : (i < m)%nat -> (j < m)%nat -> Cexpi (psk_phase m i) = Cexpi (psk_phase m j) -> i = j.
Proof.
  intros Hi Hj E. assert (Hm : 0 < INR m) by (apply lt_0_INR; lia). pose proof PI_RGT_0 as Hpi.
  assert (Hd := psk_phase_diff m i j ltac:(lia)).
  apply lt_INR in Hi as Hi', Hj as Hj'. pose proof (pos_INR i); pose proof (pos_INR j).
  assert (Hq : 0 < 2 * PI / INR m) by (apply Rdiv_lt_0_compat; lra).
  assert (Hqm : INR m * (2 * PI / INR m) = 2 * PI) by (field; lra).
  apply Cexpi_inj in E.
  - assert (E0 : (INR i - INR j) * (2 * PI / INR m) = 0) by (rewrite <- Hd; lra).
    apply Rmult_integral in E0; destruct E0 as [E0|E0]; [|lra]. apply INR_eq; lra.
  - rewrite Hd. apply Rabs_def1; nra.
Qed.

Section Psk.
Variable k : nat.
Hypothesis Hk : (1 <= k)%nat.

Lemma psk_length : length (cal_symbols_psk k) = (2 ^ k)%nat.
Proof. unfold cal_symbols_psk; rewrite map_length, seq_length; reflexivity. Qed.
Lemma psk_NoDup : NoDup (cal_symbols_psk k).
Proof.
  apply NoDup_nth_error; intros i j Hi E. rewrite psk_length in Hi. unfold cal_symbols_psk in E.
  rewrite nth_error_map_seq in E by assumption.
  destruct (Nat.lt_ge_cases j (2 ^ k)) as [Hj|Hj].
  - rewrite nth_error_map_seq in E by assumption. injection E as E1 E2.
    apply (psk_phase_inj (2 ^ k)); try assumption. unfold Cexpi; rewrite <- ?E1, <- ?E2 at 1. f_equal; assumption.
  - rewrite (proj2 (nth_error_None _ j)) in E; [discriminate|]. rewrite map_length, seq_length; assumption.
Qed.
Lemma psk_mapping_ok : exists mp, psk_mapping k = Ok mp /\ mapping_ok k (cal_symbols_psk k) (gray_code_psk k) mp.
Proof.
  apply generate_mapping_ok; [assumption|apply gray_psk_code_ok|apply gray_code_psk_length|apply psk_length].
Qed.

Lemma psk_adjacent i : (i < 2 ^ k)%nat ->
  differ_in_one_bit (bin2gray (N.of_nat i)) (bin2gray (N.of_nat ((i + 1) mod 2 ^ k))).
Proof.
  intros Hi. destruct (Nat.eq_dec (i + 1) (2 ^ k)) as [E|E].
  - rewrite E, Nat.mod_same by lia. replace (N.of_nat i) with (2 ^ N.of_nat k - 1)%N.
    + change (N.of_nat 0) with 0%N. apply bin2gray_wrap; lia.
    + rewrite <- pow2_nat_N; lia.
  - rewrite Nat.mod_small by lia. replace (N.of_nat (i + 1)) with (N.succ (N.of_nat i)) by lia. apply bin2gray_step.
Qed.
End Psk.
