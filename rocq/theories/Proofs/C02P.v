(** Statements about the alphabets of the signal classes, in the form used by the properties. *)
From Coq Require Import List ZArith NArith Bool Lia Permutation FinFun ZifyBool ZifyNat ZifyN Reals Lra Psatz Arith.
From Verif Require Import Common.Py Common.ListX Common.Cplx Model.Gray Model.Constellation Model.Decision
  Spec.Bits Spec.Geometry Proofs.GrayP Proofs.ConstP Proofs.DecisionP Proofs.MapP Proofs.QamP Proofs.PskP Proofs.C01P.
Import ListNotations.

Lemma bin2gray_bijection k :
  (forall v, (v < 2 ^ N.of_nat k)%N -> (bin2gray v < 2 ^ N.of_nat k)%N) /\
  (forall v w, bin2gray v = bin2gray w -> v = w) /\
  (forall w, (w < 2 ^ N.of_nat k)%N -> exists v, (v < 2 ^ N.of_nat k)%N /\ bin2gray v = w).
Proof. repeat split; [intros; apply bin2gray_lt; assumption|apply bin2gray_inj|apply bin2gray_surj]. Qed.

Lemma qam_labelling k : 1 <= k ->
  exists mp, qam_mapping k = Ok mp /\
    Permutation (coded_symbols mp)
      (map (fun z => Cscal (/ sqrt (cal_scaling_factor_qam k)) (ZtoC z)) (cal_symbols_qam k)) /\
    NoDup (coded_symbols mp) /\ length (coded_symbols mp) = 2 ^ k /\
    (forall a, a < 2 ^ k -> exists row, nth_error (encoding mp) a = Some row /\ length row = k /\ bits_value row = N.of_nat a).
Proof.
  intros Hk; destruct (qam_mapping_ok k Hk) as [mp [Hmp Hok]]. exists mp; split; [assumption|].
  split; [apply Hok|]. split; [apply (qam_NoDup k); assumption|]. split; [apply Hok|].
  eapply mapping_labels; eassumption.
Qed.

Lemma qam_power k mp : 1 <= k -> qam_mapping k = Ok mp ->
  mean_power (coded_symbols mp) = 1%R /\ Csum (coded_symbols mp) = C0.
Proof.
  intros Hk Hmp. destruct (qam_mapping_ok k Hk) as [mp' [Hmp' Hok]]. rewrite Hmp in Hmp'; injection Hmp' as <-.
  destruct Hok as [Hp [Hl _]]. split.
  - unfold mean_power, Rmean. rewrite map_length, Hl.
    rewrite (Rsum_perm _ _ (Permutation_map (fun s => (Cabs s ^ 2)%R) Hp)).
    rewrite (syms_power k Hk). apply Rinv_r. pose proof (INR_pow2_pos k). lra.
  - assert (E : forall l l' : list C, Permutation l l' -> Csum l = Csum l').
    { induction 1; rewrite ?Csum_cons in *; try congruence. ring. }
    rewrite (E _ _ Hp). apply syms_mean; assumption.
Qed.

Lemma psk_phase_eq k i :
  psk_phase (2 ^ k) (0 + i) = ((if k =? 2 then PI / 4 else 0) + 2 * PI * INR i / INR (2 ^ k))%R.
Proof.
  rewrite Nat.add_0_l. assert (INR (2 ^ k) <> 0)%R by (pose proof (INR_pow2_pos k); lra). unfold psk_phase.
  destruct (Nat.eqb_spec k 2) as [->|Hk].
  - cbn [Nat.eqb Nat.pow Nat.mul Nat.add]. cbn [INR]. field.
  - assert (2 ^ k <> 4) by (intros E; apply Hk; apply (Nat.pow_inj_r 2); [lia|rewrite E; reflexivity]).
    destruct (Nat.eqb_spec (2 ^ k) 4); [contradiction|]. field; assumption.
Qed.

Lemma psk_labelling k : 1 <= k ->
  exists mp, psk_mapping k = Ok mp /\
    NoDup (coded_symbols mp) /\ length (coded_symbols mp) = 2 ^ k /\
    (forall i, i < 2 ^ k ->
       nth_error (coded_symbols mp) (N.to_nat (bin2gray (N.of_nat i))) =
       Some (Cexpi ((if k =? 2 then PI / 4 else 0) + 2 * PI * INR i / INR (2 ^ k))%R)) /\
    (forall a, a < 2 ^ k -> exists i, i < 2 ^ k /\ N.to_nat (bin2gray (N.of_nat i)) = a) /\
    (forall i, i < 2 ^ k ->
       differ_in_one_bit (bin2gray (N.of_nat i)) (bin2gray (N.of_nat ((i + 1) mod 2 ^ k)))) /\
    (forall a, a < 2 ^ k -> exists row, nth_error (encoding mp) a = Some row /\ length row = k /\ bits_value row = N.of_nat a).
Proof.
  intros Hk; destruct (psk_mapping_ok k Hk) as [mp [Hmp Hok]]. exists mp; split; [assumption|].
  split; [apply (psk_coded_NoDup k); assumption|]. split; [apply Hok|].
  split; [|split; [|split]].
  - intros i Hi. destruct Hok as [_ [_ [Hin _]]]. rewrite (Hin i _ (gray_code_psk_nth k i Hi)).
    unfold cal_symbols_psk; rewrite nth_error_map_seq by assumption. do 2 f_equal. apply psk_phase_eq.
  - intros a Ha. destruct (bin2gray_surj k (N.of_nat a)) as [v [Hv E]]; [rewrite <- pow2_nat_N; lia|].
    exists (N.to_nat v). rewrite N2Nat.id, E. split; [rewrite <- pow2_nat_N in Hv; lia|lia].
  - apply psk_adjacent; assumption.
  - eapply mapping_labels; eassumption.
Qed.

Lemma qam_bitmap k mp : 1 <= k -> qam_mapping k = Ok mp ->
  length (bitmap_mtx mp) = k /\
  forall b, b < k -> exists zs os, nth_error (bitmap_mtx mp) b = Some (zs, os) /\
      length zs = 2 ^ (k - 1) /\ length os = 2 ^ (k - 1) /\
      map Some zs = map (nth_error (coded_symbols mp)) (filter (fun i => negb (label_bit k b i)) (seq 0 (2 ^ k))) /\
      map Some os = map (nth_error (coded_symbols mp)) (filter (label_bit k b) (seq 0 (2 ^ k))).
Proof.
  intros Hk Hmp. destruct (qam_mapping_ok k Hk) as [mp' [Hmp' Hok]]. rewrite Hmp in Hmp'; injection Hmp' as <-.
  apply Hok.
Qed.

Lemma psk_bitmap k mp : 1 <= k -> psk_mapping k = Ok mp ->
  length (bitmap_mtx mp) = k /\
  forall b, b < k -> exists zs os, nth_error (bitmap_mtx mp) b = Some (zs, os) /\
      length zs = 2 ^ (k - 1) /\ length os = 2 ^ (k - 1) /\
      map Some zs = map (nth_error (coded_symbols mp)) (filter (fun i => negb (label_bit k b i)) (seq 0 (2 ^ k))) /\
      map Some os = map (nth_error (coded_symbols mp)) (filter (label_bit k b) (seq 0 (2 ^ k))).
Proof.
  intros Hk Hmp. destruct (psk_mapping_ok k Hk) as [mp' [Hmp' Hok]]. rewrite Hmp in Hmp'; injection Hmp' as <-.
  apply Hok.
Qed.

Lemma square_alphabet h : 1 <= h ->
  length (cal_symbols_qam (2 * h)) = 2 ^ (2 * h) /\ NoDup (cal_symbols_qam (2 * h)) /\
  (forall z, In z (cal_symbols_qam (2 * h)) <-> square_point h z) /\
  (forall z w, In z (cal_symbols_qam (2 * h)) -> In w (cal_symbols_qam (2 * h)) -> z <> w -> (4 <= dist2Z z w)%Z) /\
  cal_scaling_factor_qam (2 * h) = mean_power (map ZtoC (cal_symbols_qam (2 * h))).
Proof.
  intros Hh. assert (Ev : Nat.even (2 * h) = true) by (apply Nat.even_spec; exists h; reflexivity).
  assert (E2 : 2 * h / 2 = h) by (rewrite Nat.mul_comm; apply Nat.div_mul; lia).
  split; [apply cal_symbols_qam_length|]. split; [apply cal_symbols_qam_NoDup|]. split; [|split].
  - intros z. unfold cal_symbols_qam, Nat.odd. rewrite Ev; cbn [negb]. rewrite E2. apply square_qam_in; lia.
  - intros z w; apply symbols_mindist; lia.
  - rewrite scaling_is_mean. unfold mean_power. rewrite map_map; reflexivity.
Qed.

Lemma cross_alphabet n :
  length (cal_symbols_qam (2 * n + 1)) = 2 ^ (2 * n + 1) /\ NoDup (cal_symbols_qam (2 * n + 1)) /\
  (2 <= n -> forall z, In z (cal_symbols_qam (2 * n + 1)) <-> cross_point n z) /\
  (n < 2 -> forall z, In z (cal_symbols_qam (2 * n + 1)) <-> rect_point (n + 1) n z) /\
  (forall z w, In z (cal_symbols_qam (2 * n + 1)) -> In w (cal_symbols_qam (2 * n + 1)) -> z <> w -> (4 <= dist2Z z w)%Z) /\
  cal_scaling_factor_qam (2 * n + 1) = mean_power (map ZtoC (cal_symbols_qam (2 * n + 1))).
Proof.
  assert (Od : Nat.odd (2 * n + 1) = true) by (apply Nat.odd_spec; exists n; reflexivity).
  assert (E2 : (2 * n + 1 - 1) / 2 = n) by (replace (2 * n + 1 - 1) with (n * 2) by lia; apply Nat.div_mul; lia).
  assert (Es : cal_symbols_qam (2 * n + 1) = cross_qam n) by (unfold cal_symbols_qam; rewrite Od, E2; reflexivity).
  split; [apply cal_symbols_qam_length|]. split; [apply cal_symbols_qam_NoDup|]. split; [|split; [|split]].
  - intros Hn z; rewrite Es; apply cross_qam_in; assumption.
  - intros Hn z; rewrite Es; apply cross_qam_in_small; assumption.
  - intros z w; apply symbols_mindist; lia.
  - rewrite scaling_is_mean. unfold mean_power. rewrite map_map; reflexivity.
Qed.
