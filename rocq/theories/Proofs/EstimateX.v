(** Instances and examples for the blind estimators *)
From Coq Require Import String List ZArith Bool Lia ZifyBool ZifyNat Reals Lra Psatz Arith.
From Verif Require Import Common.Py Common.ListX Common.Cplx Common.Angle Common.Dft Model.Constellation Model.Sync Model.Quality Model.Phase Model.Estimate
  Spec.Geometry Spec.Seq Spec.Equal Spec.Frames Spec.PhaseSpec Spec.EstimateS Spec.TwoStageS
  Proofs.DecisionP Proofs.PhaseP Proofs.PhaseQ Proofs.EstimateP Proofs.FreqP Proofs.TwoStageP Proofs.PartitionP.
Import ListNotations.
Open Scope list_scope.
Local Open Scope R_scope.

Lemma snr_exact' k e S N : (1 <= k)%nat -> e <> [] -> 0 <= S -> 0 < N -> moment2 e = S + N ->
  moment4 e = kurtosis (map ZtoC (cal_symbols_qam k)) * S ^ 2 + 4 * S * N + 2 * N ^ 2 -> cal_snr_qam e k = Some (S / N).
Proof. intros Hk. intros. apply snr_exact; try assumption. apply kurtosis_lt. exact Hk. Qed.
Lemma s0_exact' k e S N : (1 <= k)%nat -> e <> [] -> 0 < S -> 0 <= N -> moment2 e = S + N ->
  moment4 e = kurtosis (map ZtoC (cal_symbols_qam k)) * S ^ 2 + 4 * S * N + 2 * N ^ 2 -> cal_s0 e k = Some S.
Proof. intros Hk. intros. apply (s0_exact k e S N); try assumption. apply kurtosis_lt. exact Hk. Qed.
Lemma snr_noise_free' k e S : (1 <= k)%nat -> e <> [] -> 0 < S -> moment2 e = S ->
  moment4 e = kurtosis (map ZtoC (cal_symbols_qam k)) * S ^ 2 -> cal_snr_qam e k = None /\ cal_s0 e k = Some S.
Proof. intros Hk. intros. apply snr_noise_free; try assumption. apply kurtosis_lt. exact Hk. Qed.
Lemma cross_kurtosis n : (2 <= n)%nat -> kurtosis (map ZtoC (cal_symbols_qam (2 * n + 1)))
  = (3251 * (4 ^ (n - 1)) ^ 2 - 1240 * 4 ^ (n - 1) + 104) / 90 / ((31 * 4 ^ (n - 1) - 4) / 6) ^ 2.
Proof. intros Hn. destruct (cross_moments n Hn) as (A & B). unfold kurtosis. rewrite A, B. reflexivity. Qed.
Lemma snr_example : cal_snr_qam [(1 + sqrt 3, 0); (0, 1 - sqrt 3); (- (1 + sqrt 3), 0); (0, sqrt 3 - 1)] 2 = Some (2 / 2).
Proof.
  assert (Q : sqrt 3 * sqrt 3 = 3) by (apply sqrt_sqrt; lra). set (q := sqrt 3) in *.
  apply snr_exact'; [lia|discriminate|lra|lra| |].
  - unfold moment2, Rmean, Cnorm2. cbn [map fst snd length fold_right Rsum INR]. nra.
  - pose proof (square_kurtosis 1 ltac:(lia)) as K. change (2 * 1)%nat with 2%nat in K. rewrite K. unfold moment4, Rmean, Cnorm2. cbn [map fst snd length INR pow].
    unfold Rsum; cbn [fold_right].
    assert (E1 : (1 + q) * (1 + q) + 0 * 0 = 4 + 2 * q) by nra. assert (E2 : (0 * 0 + (1 - q) * (1 - q)) = 4 - 2 * q) by nra.
    assert (E3 : - (1 + q) * - (1 + q) + 0 * 0 = 4 + 2 * q) by nra. assert (E4 : 0 * 0 + (q - 1) * (q - 1) = 4 - 2 * q) by nra. rewrite E1, E2, E3, E4. nra.
Qed.

Lemma blind_above ms ws : length ms = length ws -> (forall w, In w ws -> w <> C0 /\ - (PI / 4) < Carg w <= PI / 4) -> 0 < variance ws -> Cmean ws <> C0 ->
  exists v, cal_snr_blind_qpsk (map (fun p => (Cexpi (PI / 4) * (Cpow Ci (fst p) * snd p))%C) (combine ms ws)) = Some v /\
    10 * (ln (Cnorm2 (Cmean ws) / variance ws) / ln 10) < v.
Proof.
  intros Hl Hw Hv Hm. eexists. split; [apply blind_qpsk; assumption|].
  assert (P : 0 < Cnorm2 (Cmean ws)).
  { pose proof (Cnorm2_nonneg (Cmean ws)). destruct (Req_EM_T (Cnorm2 (Cmean ws)) 0) as [E|]; [apply Cnorm2_zero in E; contradiction|lra]. }
  assert (Q : 0 < Cnorm2 (Cmean ws) / variance ws) by (apply Rdiv_lt_0_compat; assumption).
  assert (L : 0 < ln 10) by (rewrite <- ln_1; apply ln_increasing; lra). apply Rmult_lt_compat_l; [lra|]. apply Rmult_lt_compat_r; [apply Rinv_0_lt_compat; exact L|].
  apply ln_increasing; lra.
Qed.
Lemma blind_example : cal_snr_blind_qpsk [(Cexpi (PI / 4) * (Cpow Ci 0 * (1, 0)))%C; (Cexpi (PI / 4) * (Cpow Ci 3 * (3, 0)))%C] = Some (10 * (ln (4 / 1 + 1) / ln 10)).
Proof.
  assert (R : forall c, 0 < c -> Carg (c, 0) = 0).
  { intros c Hc. replace (c, 0) with (Cscal c (Cexpi 0)); [apply Carg_unique; [exact Hc|pose proof PI_RGT_0; lra]|]. rewrite Cexpi_0. apply C_eq; cbn; ring. }
  assert (M : Cmean [(1, 0); (3, 0)] = (2, 0)) by (unfold Cmean, Csum; cbn; apply C_eq; cbn; lra).
  assert (V : variance [(1, 0); (3, 0)] = 1) by (unfold variance; rewrite M; unfold Rmean, Cnorm2; cbn; lra).
  pose proof (blind_qpsk [0%nat; 3%nat] [(1, 0); (3, 0)] eq_refl) as H. rewrite M, V in H. unfold Cnorm2 in H at 1. cbn [fst snd] in H.
  replace (2 * 2 + 0 * 0) with 4 in H by ring. apply H; [|lra]. pose proof PI_RGT_0.
  intros w [<-|[<-|[]]]; (split; [intros E; injection E; lra|rewrite R by lra; lra]).
Qed.

Lemma ser_fails rx tx M method : exists e, cal_ser_qam rx tx M method = Err e.
Proof. unfold cal_ser_qam. destruct (decision_method method); cbn [bind]; eexists; reflexivity. Qed.
Lemma ser_errors rx tx M : cal_ser_qam rx tx M "pyx"%string = Err ValueError /\ cal_ser_qam rx tx M "pyt"%string = Err TypeError.
Proof. split; reflexivity. Qed.

Lemma alias_found os m n row a : next_pow2 m n -> (2 <= m)%nat -> (1 <= os)%nat -> (2 <= length row)%nat -> a <> C0 ->
  qpsk_offset a (INR os / 4) os row -> find_freq_offset [row] os false m = Ok [0].
Proof.
  intros Hn Hm Ho Hl Ha H. apply (find_exact os m n [row] [0] Hn Hm Ho). constructor; [|constructor]. split; [exact Hl|]. exists a, 0%Z. split; [exact Ha|].
  split; [exact (quarter_alias0 os row a Ho H)|]. assert (0 < INR n) by (destruct Hn as (h & -> & Hn & _); apply lt_0_INR; lia). split; [field; lra|]. destruct Hn as (h & -> & Hn & _). lia.
Qed.

Lemma np_self h : next_pow2 (2 ^ h) (2 ^ h).
Proof. exists h. split; [reflexivity|]. split; [lia|]. intros g Hg. apply (Nat.pow_le_mono_r_iff 2); lia. Qed.
Lemma unit_quarter k : Cexpi (INR k * (PI / 2)) = Cpow Ci k.
Proof.
  replace Ci with (Cexpi (PI / 2)) by (unfold Cexpi; rewrite cos_PI2, sin_PI2; reflexivity). rewrite Cpow_expi. reflexivity.
Qed.
Lemma zero_offset_row ks row : row = map (Cpow Ci) ks -> qpsk_offset C1 0 1 row.
Proof.
  intros -> i z Hz. rewrite nth_error_map in Hz. destruct (nth_error ks i) as [k|]; [|discriminate]. injection Hz as <-. exists k.
  rewrite unit_quarter. replace (2 * PI * 0 * INR i / INR 1) with 0 by (cbn [INR]; field). rewrite Cexpi_0. ring.
Qed.
Lemma quarter_example : find_freq_offset [[C1; Ci; (- C1)%C; (- Ci)%C]; [C1; C1; (- C1)%C; Ci]] 1 false 4 = Ok [0; 0].
Proof.
  assert (I2 : Cpow Ci 2 = (- C1)%C) by (cbn; apply C_eq; cbn; ring). assert (I3 : Cpow Ci 3 = (- Ci)%C) by (cbn; apply C_eq; cbn; ring).
  assert (I1 : Cpow Ci 1 = Ci) by (cbn; apply C_eq; cbn; ring). assert (I0 : Cpow Ci 0 = C1) by reflexivity.
  apply (find_exact 1 4 4 _ _ (np_self 2)); try lia. constructor; [|constructor; [|constructor]]; (split; [cbn; lia|]); exists C1, 0%Z;
    (split; [intros H; injection H; lra|]); (split; [|split; [cbn [INR]; field|lia]]).
  - apply (zero_offset_row [0; 1; 2; 3]%nat). cbn [map]. rewrite I0, I1, I2, I3. reflexivity.
  - apply (zero_offset_row [0; 0; 2; 1]%nat). cbn [map]. rewrite I0, I1, I2. reflexivity.
Qed.
Lemma eighth_example : find_freq_offset [[C1; Cexpi (PI / 4); Ci; Cexpi (3 * (PI / 4))]] 1 false 4 = Ok [- (1 / 8)].
Proof.
  apply (find_exact 1 4 4 _ _ (np_self 2)); try lia. constructor; [|constructor]. split; [cbn; lia|]. exists C1, (-2)%Z. split; [intros H; injection H; lra|].
  split; [|split; [cbn [INR]; field|lia]].
  assert (K : forall i, (C1 * Cexpi (INR i * (PI / 2)) * Cexpi (2 * PI * - (1 / 8) * INR i / INR 1))%C = Cexpi (INR i * (PI / 4))).
  { intros i. replace (C1 * Cexpi (INR i * (PI / 2)) * Cexpi (2 * PI * - (1 / 8) * INR i / INR 1))%C with (Cexpi (INR i * (PI / 2)) * Cexpi (2 * PI * - (1 / 8) * INR i / INR 1))%C by ring.
    rewrite <- Cexpi_add. f_equal. cbn [INR]. field. }
  intros i z Hz. exists i. rewrite K. destruct i as [|[|[|[|i]]]]; cbn [nth_error] in Hz; [| | | |destruct i; discriminate]; injection Hz as <-; cbn [INR].
  - rewrite Rmult_0_l, Cexpi_0. reflexivity.
  - f_equal. ring.
  - replace ((1 + 1) * (PI / 4)) with (PI / 2) by field. unfold Cexpi. rewrite cos_PI2, sin_PI2. reflexivity.
  - f_equal. ring.
Qed.

Lemma map_ones (w : C) L : map (fun s => s * w)%C (repeat C1 L) = repeat w L.
Proof. induction L as [|L IH]; [reflexivity|]. cbn [repeat map]. rewrite IH. apply (f_equal2 cons); [ring|reflexivity]. Qed.
Lemma even_worse M h N L method : (1 <= M)%nat -> (1 <= h)%nat -> (1 <= N)%nat -> method = "py"%string \/ method = "pyt"%string ->
  (exists out ph, core_bps [repeat (Cexpi (PI / 4)) L] M [C1; Ci; (- C1)%C; (- Ci)%C] N method = Ok (out, ph) /\
    forall m s, interior L N m -> nth_error (nth 0 out []) m = Some s -> In s [C1; Ci; (- C1)%C; (- Ci)%C]) /\
  exists out ph, bps_twostage [repeat (Cexpi (PI / 4)) L] M [C1; Ci; (- C1)%C; (- Ci)%C] N (2 * h) method = Ok (out, ph) /\
    forall m s, interior L N m -> nth_error (nth 0 out []) m = Some s -> ~ In s [C1; Ci; (- C1)%C; (- Ci)%C].
Proof.
  intros HM Hh HN Hm. split; [|apply even_misses; assumption].
  destruct (bps_recovers [repeat C1 L] M [C1; Ci; (- C1)%C; (- Ci)%C] N 0 method HN ltac:(lia)) as (out & ph & H1 & _ & H2).
  - intros s [<-|[<-|[<-|[<-|[]]]]]; cbn [In]; [right; left|right; right; left|right; right; right; left|left]; apply C_eq; cbn; ring.
  - intros row s [<-|[]] Hs. apply repeat_spec in Hs as ->. left. reflexivity.
  - discriminate.
  - exact Hm.
  - assert (A0 : bps_angle M 0 = - (PI / 4)) by (unfold bps_angle; cbn [INR]; unfold Rdiv; lra).
    assert (E : map (map (fun s => s * Cexpi (- bps_angle M 0))%C) [repeat C1 L] = [repeat (Cexpi (PI / 4)) L]).
    { cbn [map]. apply (f_equal (fun x => [x])). rewrite A0, Ropp_involutive. apply map_ones. }
    rewrite E in H1. exists out, ph. split; [exact H1|]. intros m s Hi Hs. destruct (H2 0%nat (repeat C1 L) eq_refl) as (row' & Hr & _ & H3). rewrite repeat_length in H3.
    rewrite (nth_error_nth out 0 [] Hr) in Hs. exact (H3 m s Hi Hs).
Qed.
Lemma offsets_example : fine_offset 1 4 1 = - (PI / 12) /\ fine_offset 1 5 2 = 0 /\ interior 3 1 1.
Proof. unfold fine_offset, interior. cbn [Nat.eqb Nat.sub INR]. split; [field|]. split; [field|]. lia. Qed.

Lemma partition_alphabet : exists mask, partition_16qam (map (fun z => ZtoC z * Cexpi 1)%C (cal_symbols_qam 4)) = Some mask /\
  Forall2 (fun z b => b = true <-> Cnorm2 z <> 10 * 1 ^ 2) (map (fun z => ZtoC z * Cexpi 1)%C (cal_symbols_qam 4)) mask.
Proof.
  assert (L : cal_symbols_qam 4 = cal_symbols_qam (2 * 2)) by reflexivity.
  assert (N : forall z, Cnorm2 (ZtoC z * Cexpi 1)%C = Cnorm2 (ZtoC z)) by (intros z; rewrite Cnorm2_mul, Cnorm2_expi; ring).
  assert (V : cal_symbols_qam 4 = ltac:(let v := eval vm_compute in (cal_symbols_qam 4) in exact v)) by (vm_compute; reflexivity). rewrite V.
  apply partition_ideal; [discriminate|lra| | |].
  - unfold moment2, Rmean. rewrite map_map, (map_ext _ (fun z => Cnorm2 (ZtoC z))) by exact N. cbn. unfold Cnorm2, ZtoC. cbn. lra.
  - unfold moment4, Rmean. rewrite map_map, (map_ext _ (fun z => Cnorm2 (ZtoC z) ^ 2)) by (intros z; rewrite N; reflexivity). cbn. unfold Cnorm2, ZtoC. cbn. lra.
  - intros z Hz. apply in_map_iff in Hz as (w & <- & Hw). rewrite N. cbn in Hw. repeat (destruct Hw as [<-|Hw]; [unfold Cnorm2, ZtoC; cbn; lra|]). contradiction.
Qed.
