(** Properties C01-C07: constellations and bit mapping. *)
From Coq Require Import List ZArith NArith Bool Permutation Reals Arith Lia.
From Verif Require Import Common.Py Common.Cplx Model.Gray Model.Constellation Model.Decision
  Spec.Bits Spec.Geometry Proofs.C01P Proofs.C02P Proofs.GrayP Proofs.QamP.
Import ListNotations.

(** C01: demodulate (modulate bits) = bits (cut to whole symbols), every mode, every length. *)
Theorem C01_qam_roundtrip : forall (k : nat) (rows : list (list bool)), 1 <= k <= 16 ->
  exists mp out, qam_mapping k = Ok mp /\ modulate mp rows = Ok out /\
    Forall2 (fun bits syms => length syms = length bits / k /\
                              forall s, In s syms -> In s (coded_symbols mp)) rows out /\
    demodulate mp out = Ok (map (fun bits => firstn (length bits / k * k) bits) rows).
Proof. exact qam_roundtrip. Qed.
Print Assumptions C01_qam_roundtrip.

Theorem C01_psk_roundtrip : forall (k : nat) (rows : list (list bool)), 1 <= k <= 16 ->
  exists mp out, psk_mapping k = Ok mp /\ modulate mp rows = Ok out /\
    Forall2 (fun bits syms => length syms = length bits / k /\
                              forall s, In s syms -> In s (coded_symbols mp)) rows out /\
    demodulate mp out = Ok (map (fun bits => firstn (length bits / k * k) bits) rows).
Proof. exact psk_roundtrip. Qed.
Print Assumptions C01_psk_roundtrip.

Example C01_case : exists mp out, qam_mapping 3 = Ok mp /\
  modulate mp [[true; false; true; false; false; true; true]] = Ok out /\
  demodulate mp out = Ok [[true; false; true; false; false; true]].
Proof.
  destruct (C01_qam_roundtrip 3 [[true; false; true; false; false; true; true]]) as [mp [out [H1 [H2 [_ H3]]]]]; [lia|].
  exists mp, out; auto.
Qed.

(** The bound of 16 bits is needed: the index array is 16 bits wide. *)
Theorem C01_17_bits_refuted : exists mp out,
  qam_mapping 17 = Ok mp /\ modulate mp [repeat true 17] = Ok out /\
  demodulate mp out = Ok [false :: repeat true 16].
Proof. exact qam17_wraps. Qed.
Print Assumptions C01_17_bits_refuted.

(** C02 *)
Theorem C02_bin2gray_bijection : forall k : nat,
  (forall v, (v < 2 ^ N.of_nat k)%N -> (bin2gray v < 2 ^ N.of_nat k)%N) /\
  (forall v w, bin2gray v = bin2gray w -> v = w) /\
  (forall w, (w < 2 ^ N.of_nat k)%N -> exists v, (v < 2 ^ N.of_nat k)%N /\ bin2gray v = w).
Proof. exact bin2gray_bijection. Qed.
Print Assumptions C02_bin2gray_bijection.

Theorem C02_bin2gray_adjacent : forall v : N, differ_in_one_bit (bin2gray v) (bin2gray (N.succ v)).
Proof. exact bin2gray_step. Qed.
Print Assumptions C02_bin2gray_adjacent.

Example C02_case : bin2gray 6 = 5%N /\ bin2gray 7 = 4%N.
Proof. split; reflexivity. Qed.

Theorem C02_qam_labelling : forall k : nat, 1 <= k ->
  exists mp, qam_mapping k = Ok mp /\
    Permutation (coded_symbols mp)
      (map (fun z => Cscal (/ sqrt (cal_scaling_factor_qam k)) (ZtoC z)) (cal_symbols_qam k)) /\
    NoDup (coded_symbols mp) /\ length (coded_symbols mp) = 2 ^ k /\
    (forall a, a < 2 ^ k ->
       exists row, nth_error (encoding mp) a = Some row /\ length row = k /\ bits_value row = N.of_nat a).
Proof. exact qam_labelling. Qed.
Print Assumptions C02_qam_labelling.

(** C03 *)
Theorem C03_square_neighbours_gray : forall (k : nat) mp (a b : nat),
  1 <= k -> Nat.even k = true -> qam_mapping k = Ok mp ->
  nearest_neighbours (coded_symbols mp) a b -> differ_in_one_bit (N.of_nat a) (N.of_nat b).
Proof. exact square_neighbours_gray. Qed.
Print Assumptions C03_square_neighbours_gray.

(** Cross QAM is not Gray labelled: 32-QAM, labels 0 and 12. *)
Theorem C03_cross_refuted : exists mp,
  qam_mapping 5 = Ok mp /\ nearest_neighbours (coded_symbols mp) 0 12 /\ ~ differ_in_one_bit 0 12.
Proof. exact cross32_not_gray. Qed.
Print Assumptions C03_cross_refuted.

(** C04 *)
Theorem C04_psk_circular_gray : forall k : nat, 1 <= k ->
  exists mp, psk_mapping k = Ok mp /\
    NoDup (coded_symbols mp) /\ length (coded_symbols mp) = 2 ^ k /\
    (forall i, i < 2 ^ k ->
       nth_error (coded_symbols mp) (N.to_nat (bin2gray (N.of_nat i))) =
       Some (Cexpi ((if k =? 2 then PI / 4 else 0) + 2 * PI * INR i / INR (2 ^ k))%R)) /\
    (forall a, a < 2 ^ k -> exists i, i < 2 ^ k /\ N.to_nat (bin2gray (N.of_nat i)) = a) /\
    (forall i, i < 2 ^ k ->
       differ_in_one_bit (bin2gray (N.of_nat i)) (bin2gray (N.of_nat ((i + 1) mod 2 ^ k)))) /\
    (forall a, a < 2 ^ k ->
       exists row, nth_error (encoding mp) a = Some row /\ length row = k /\ bits_value row = N.of_nat a).
Proof. exact psk_labelling. Qed.
Print Assumptions C04_psk_circular_gray.

(** C05 *)
Theorem C05_square_alphabet : forall h : nat, 1 <= h ->
  length (cal_symbols_qam (2 * h)) = 2 ^ (2 * h) /\ NoDup (cal_symbols_qam (2 * h)) /\
  (forall z, In z (cal_symbols_qam (2 * h)) <-> square_point h z) /\
  (forall z w, In z (cal_symbols_qam (2 * h)) -> In w (cal_symbols_qam (2 * h)) -> z <> w -> (4 <= dist2Z z w)%Z) /\
  cal_scaling_factor_qam (2 * h) = mean_power (map ZtoC (cal_symbols_qam (2 * h))).
Proof. exact square_alphabet. Qed.
Print Assumptions C05_square_alphabet.

(** unit power and zero mean, every order (square and cross) *)
Theorem C05_unit_power : forall (k : nat) mp, 1 <= k -> qam_mapping k = Ok mp ->
  mean_power (coded_symbols mp) = 1%R /\ Csum (coded_symbols mp) = C0.
Proof. exact qam_power. Qed.
Print Assumptions C05_unit_power.

Theorem C05_minimum_distance : forall (k : nat), 1 <= k -> forall mp, qam_mapping k = Ok mp ->
  minimum_distance (coded_symbols mp) (2 / sqrt (cal_scaling_factor_qam k)).
Proof. exact qam_mindist. Qed.
Print Assumptions C05_minimum_distance.

Example C05_case : In (3, -1)%Z (cal_symbols_qam 4) /\ ~ In (5, 1)%Z (cal_symbols_qam 4).
Proof. split; [vm_compute; tauto|]. intros H; vm_compute in H; intuition congruence. Qed.

(** C06 *)
Theorem C06_cross_alphabet : forall n : nat,
  length (cal_symbols_qam (2 * n + 1)) = 2 ^ (2 * n + 1) /\ NoDup (cal_symbols_qam (2 * n + 1)) /\
  (2 <= n -> forall z, In z (cal_symbols_qam (2 * n + 1)) <-> cross_point n z) /\
  (n < 2 -> forall z, In z (cal_symbols_qam (2 * n + 1)) <-> rect_point (n + 1) n z) /\
  (forall z w, In z (cal_symbols_qam (2 * n + 1)) -> In w (cal_symbols_qam (2 * n + 1)) -> z <> w ->
     (4 <= dist2Z z w)%Z) /\
  cal_scaling_factor_qam (2 * n + 1) = mean_power (map ZtoC (cal_symbols_qam (2 * n + 1))).
Proof. exact cross_alphabet. Qed.
Print Assumptions C06_cross_alphabet.

Example C06_case : In (5, -3)%Z (cal_symbols_qam 5) /\ ~ In (5, 5)%Z (cal_symbols_qam 5).
Proof. split; [vm_compute; tauto|]. intros H; vm_compute in H; intuition congruence. Qed.

(** C07 *)
Theorem C07_qam_bitmap : forall (k : nat) mp, 1 <= k -> qam_mapping k = Ok mp ->
  length (bitmap_mtx mp) = k /\
  forall b, b < k -> exists zs os, nth_error (bitmap_mtx mp) b = Some (zs, os) /\
      length zs = 2 ^ (k - 1) /\ length os = 2 ^ (k - 1) /\
      map Some zs = map (nth_error (coded_symbols mp)) (filter (fun i => negb (label_bit k b i)) (seq 0 (2 ^ k))) /\
      map Some os = map (nth_error (coded_symbols mp)) (filter (label_bit k b) (seq 0 (2 ^ k))).
Proof. exact qam_bitmap. Qed.
Print Assumptions C07_qam_bitmap.

Theorem C07_psk_bitmap : forall (k : nat) mp, 1 <= k -> psk_mapping k = Ok mp ->
  length (bitmap_mtx mp) = k /\
  forall b, b < k -> exists zs os, nth_error (bitmap_mtx mp) b = Some (zs, os) /\
      length zs = 2 ^ (k - 1) /\ length os = 2 ^ (k - 1) /\
      map Some zs = map (nth_error (coded_symbols mp)) (filter (fun i => negb (label_bit k b i)) (seq 0 (2 ^ k))) /\
      map Some os = map (nth_error (coded_symbols mp)) (filter (label_bit k b) (seq 0 (2 ^ k))).
Proof. exact psk_bitmap. Qed.
Print Assumptions C07_psk_bitmap.

(** the mapping exists for every order, so the hypotheses [qam_mapping k = Ok mp] above are met *)
Example C07_case : exists mp, qam_mapping 4 = Ok mp /\ length (bitmap_mtx mp) = 4.
Proof.
  destruct (C02_qam_labelling 4) as [mp [H _]]; [lia|]. exists mp; split; [assumption|].
  apply (C07_qam_bitmap 4 mp); [lia|assumption].
Qed.
