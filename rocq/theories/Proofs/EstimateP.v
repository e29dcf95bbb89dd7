(** Moment-based SNR estimates and the blind QPSK estimate *)
From Coq Require Import String List ZArith Bool Lia Permutation ZifyBool ZifyNat Reals Lra Psatz Arith.
From Verif Require Import Common.Py Common.ListX Common.Cplx Common.Angle Model.Constellation Model.Sync Model.Quality Model.Estimate
  Spec.Geometry Spec.EstimateS Proofs.ConstP Proofs.DecisionP Proofs.QamP Proofs.QualityQ Proofs.QualityT.
Import ListNotations.
Open Scope list_scope.
Local Open Scope R_scope.

Lemma cal_s0_of e nb : cal_s0 e nb = s0_of (cal_gamma nb) e.
Proof.
  unfold cal_s0, s0_of, s1_s2, moments. destruct e as [|z e]; [reflexivity|]. cbv zeta. cbn [fst].
  destruct (Req_EM_T _ 0); [reflexivity|]. destruct (Rlt_dec _ 0); reflexivity.
Qed.
Lemma moments_eq e : moments e = (moment2 e, moment4 e).
Proof.
  unfold moments, moment2, moment4. apply f_equal2; f_equal; apply map_ext; intros z; [apply Cabs_pow2|rewrite Cabs_pow4; ring].
Qed.
Lemma Rmean_scal k l : Rmean (map (fun x => k * x) l) = k * Rmean l.
Proof. unfold Rmean. rewrite map_length, Rsum_map_scal, map_id. unfold Rdiv. ring. Qed.
Lemma scaling_pos k : (1 <= k)%nat -> 0 < cal_scaling_factor_qam k.
Proof.
  intros Hk. rewrite scaling_is_mean. unfold Rmean. rewrite map_length, cal_symbols_qam_length.
  apply Rdiv_lt_0_compat; [|apply INR_pow2_pos].
  destruct (cal_symbols_qam k) as [|z l] eqn:E; [exfalso; pose proof (cal_symbols_qam_length k) as L; rewrite E in L; cbn in L; pose proof (pow2_pos k); lia|].
  cbn [map]. rewrite Rsum_cons.
  assert (0 <= Rsum (map (fun z => Cabs (ZtoC z) ^ 2) l)) by (apply Rsum_nonneg; intros x Hx; apply in_map_iff in Hx as (y & <- & _); apply pow2_ge_0).
  assert (0 < Cabs (ZtoC z) ^ 2); [|lra]. rewrite Cabs_pow2, Cnorm2_ZtoC.
  assert (O : Z.Odd (fst z)) by (apply (symbols_first_odd k z Hk); rewrite E; now left).
  assert (N : fst z <> 0%Z) by (destruct O as (q & ->); lia). apply IZR_neq in N.
  assert (0 < IZR (fst z) ^ 2) by (rewrite <- Rsqr_pow2; now apply Rsqr_pos_lt). pose proof (pow2_ge_0 (IZR (snd z))). lra.
Qed.
Lemma gamma_kurtosis k : (1 <= k)%nat -> cal_gamma k = kurtosis (map ZtoC (cal_symbols_qam k)).
Proof.
  intros Hk. pose proof (scaling_pos k Hk) as P. rewrite (gamma_eq k _ P eq_refl).
  assert (M2 : moment2 (map ZtoC (cal_symbols_qam k)) = cal_scaling_factor_qam k).
  { rewrite scaling_is_mean. unfold moment2. rewrite map_map. f_equal. apply map_ext. intros z. symmetry. apply Cabs_pow2. }
  unfold kurtosis. rewrite M2. unfold moment4. rewrite map_map. set (f := cal_scaling_factor_qam k) in *.
  rewrite (map_ext _ (fun z => / (f * f) * (Cnorm2 (ZtoC z) ^ 2))) by (intros z; field; lra).
  rewrite <- map_map with (f := fun z => Cnorm2 (ZtoC z) ^ 2) (g := fun x => / (f * f) * x). rewrite Rmean_scal. field. lra.
Qed.

(** the two numbers at the moments of signal power S and noise power N *)
Lemma s1_s2_ideal g e S N : e <> [] -> 0 <= g < 2 -> 0 <= S -> 0 <= N -> (0 < g * S ^ 2 + 4 * S * N + 2 * N ^ 2) ->
  moment2 e = S + N -> moment4 e = g * S ^ 2 + 4 * S * N + 2 * N ^ 2 ->
  let r4 := g * S ^ 2 + 4 * S * N + 2 * N ^ 2 in
  s1_s2 g e = Some (- ((2 - g) * S * (2 * S + N) / r4), - ((2 - g) * N * (2 * S + N) / r4)).
Proof.
  intros He Hg HS HN P M2 M4 r4. unfold s1_s2. destruct e as [|z e]; [congruence|]. rewrite moments_eq, M2, M4. fold r4. fold r4 in P.
  cbv zeta. destruct (Req_EM_T r4 0); [lra|].
  assert (E : (2 - g) * (2 * (S + N) ^ 4 / r4 ^ 2 - (S + N) ^ 2 / r4) = ((2 - g) * S * (S + N) / r4) ^ 2).
  { replace (2 * (S + N) ^ 4 / r4 ^ 2 - (S + N) ^ 2 / r4) with ((S + N) ^ 2 * (2 * (S + N) ^ 2 - r4) / r4 ^ 2) by (field; lra).
    replace (2 * (S + N) ^ 2 - r4) with ((2 - g) * S ^ 2) by (unfold r4; ring). field. lra. }
  rewrite E. destruct (Rlt_dec _ 0) as [L|_]; [pose proof (pow2_ge_0 ((2 - g) * S * (S + N) / r4)); lra|].
  rewrite sqrt_pow2.
  2: { apply Rmult_le_pos; [apply Rmult_le_pos; [apply Rmult_le_pos; lra|lra]|left; now apply Rinv_0_lt_compat]. }
  apply (f_equal Some). apply f_equal2.
  - replace 1 with (r4 / r4) at 1 by (field; lra). replace (r4 / r4 - 2 * (S + N) ^ 2 / r4) with (- ((2 * (S + N) ^ 2 - r4) / r4)) by (field; lra).
    replace (2 * (S + N) ^ 2 - r4) with ((2 - g) * S ^ 2) by (unfold r4; ring). field. lra.
  - replace (g * (S + N) ^ 2 / r4 - 1) with ((g * (S + N) ^ 2 - r4) / r4) by (field; lra).
    replace (g * (S + N) ^ 2 - r4) with (- ((2 - g) * N * (2 * S + N))) by (unfold r4; ring). field. lra.
Qed.
Lemma ideal_pos g S N : 0 <= g -> 0 <= S -> 0 < N -> 0 < g * S ^ 2 + 4 * S * N + 2 * N ^ 2.
Proof. intros. assert (0 <= g * S ^ 2) by (apply Rmult_le_pos; [assumption|apply pow2_ge_0]). assert (0 <= S * N) by (apply Rmult_le_pos; lra). assert (0 < N ^ 2) by (apply pow_lt; lra). lra. Qed.
Lemma moment2_nonneg l : 0 <= moment2 l.
Proof.
  unfold moment2, Rmean. destruct l as [|z l]; [unfold Rsum; cbn; unfold Rdiv; lra|]. rewrite map_length.
  apply Rmult_le_pos; [apply Rsum_nonneg; intros x Hx; apply in_map_iff in Hx as (y & <- & _); apply Cnorm2_nonneg|].
  left. apply Rinv_0_lt_compat, lt_0_INR. cbn. lia.
Qed.
Lemma kurtosis_pos l : l <> [] -> 0 < moment2 l -> 0 < kurtosis l.
Proof.
  intros Hl P. unfold kurtosis. apply Rdiv_lt_0_compat; [|now apply pow_lt].
  unfold moment4, Rmean. rewrite map_length. apply Rdiv_lt_0_compat; [|apply lt_0_INR; destruct l; [congruence|cbn; lia]].
  destruct (Rle_lt_dec (Rsum (map (fun z => Cnorm2 z ^ 2) l)) 0) as [L|L]; [exfalso|exact L].
  assert (Z : Rsum (map (fun z => Cnorm2 z ^ 2) l) = 0).
  { apply Rle_antisym; [exact L|]. apply Rsum_nonneg. intros x Hx. apply in_map_iff in Hx as (y & <- & _). apply pow2_ge_0. }
  assert (A : forall z, In z l -> Cnorm2 z = 0).
  { intros z Hz. assert (Cnorm2 z ^ 2 = 0); [|nra].
    apply (Rsum_zero_nonneg (map (fun z => Cnorm2 z ^ 2) l)); [intros x Hx; apply in_map_iff in Hx as (y & <- & _); apply pow2_ge_0|exact Z|].
    apply in_map_iff. eauto. }
  assert (moment2 l = 0); [|lra]. unfold moment2, Rmean. rewrite (map_ext_in _ (fun _ => 0) l A). rewrite Rsum_map_const. unfold Rdiv. ring.
Qed.
Lemma alphabet_power k : (1 <= k)%nat -> 0 < moment2 (map ZtoC (cal_symbols_qam k)).
Proof.
  intros Hk. unfold moment2. rewrite map_map. rewrite (map_ext _ (fun z => Cabs (ZtoC z) ^ 2)) by (intros; symmetry; apply Cabs_pow2).
  rewrite <- scaling_is_mean. now apply scaling_pos.
Qed.
Lemma alphabet_nonempty k : map ZtoC (cal_symbols_qam k) <> [].
Proof. intros E. apply (f_equal (@length C)) in E. rewrite map_length, cal_symbols_qam_length in E. cbn in E. pose proof (pow2_pos k). lia. Qed.
Lemma gamma_pos k : (1 <= k)%nat -> 0 < kurtosis (map ZtoC (cal_symbols_qam k)).
Proof. intros Hk. apply kurtosis_pos; [apply alphabet_nonempty|now apply alphabet_power]. Qed.

Lemma snr_exact k e S N : (1 <= k)%nat -> e <> [] -> 0 <= S -> 0 < N ->
  kurtosis (map ZtoC (cal_symbols_qam k)) < 2 -> moment2 e = S + N ->
  moment4 e = kurtosis (map ZtoC (cal_symbols_qam k)) * S ^ 2 + 4 * S * N + 2 * N ^ 2 ->
  cal_snr_qam e k = Some (S / N).
Proof.
  intros Hk He HS HN G M2 M4. unfold cal_snr_qam. rewrite (gamma_kurtosis k Hk). pose proof (gamma_pos k Hk) as P.
  set (g := kurtosis _) in *. rewrite (s1_s2_ideal g e S N); try assumption; try lra; [|apply ideal_pos; lra].
  pose proof (ideal_pos g S N ltac:(lra) HS HN) as P4. set (r4 := g * S ^ 2 + 4 * S * N + 2 * N ^ 2) in *.
  assert (0 < (2 - g) * N * (2 * S + N) / r4).
  { apply Rdiv_lt_0_compat; [|exact P4]. apply Rmult_lt_0_compat; [apply Rmult_lt_0_compat; lra|lra]. }
  destruct (Req_EM_T _ 0); [lra|]. apply (f_equal Some). field. repeat split; lra.
Qed.
Lemma s0_exact k e S N : (1 <= k)%nat -> e <> [] -> 0 < S -> 0 <= N ->
  kurtosis (map ZtoC (cal_symbols_qam k)) < 2 -> moment2 e = S + N ->
  moment4 e = kurtosis (map ZtoC (cal_symbols_qam k)) * S ^ 2 + 4 * S * N + 2 * N ^ 2 ->
  cal_s0 e k = Some S.
Proof.
  intros Hk He HS HN G M2 M4. rewrite cal_s0_of, (gamma_kurtosis k Hk). pose proof (gamma_pos k Hk) as P.
  set (g := kurtosis _) in *. unfold s0_of.
  assert (P4 : 0 < g * S ^ 2 + 4 * S * N + 2 * N ^ 2).
  { assert (0 < g * S ^ 2) by (apply Rmult_lt_0_compat; [assumption|apply pow_lt; lra]). assert (0 <= S * N) by (apply Rmult_le_pos; lra). pose proof (pow2_ge_0 N). lra. }
  rewrite (s1_s2_ideal g e S N); try assumption; try lra. set (r4 := g * S ^ 2 + 4 * S * N + 2 * N ^ 2) in *.
  assert (0 < (2 - g) * S * (2 * S + N) / r4).
  { apply Rdiv_lt_0_compat; [|exact P4]. apply Rmult_lt_0_compat; [apply Rmult_lt_0_compat; lra|lra]. }
  destruct (Req_EM_T _ 0); [lra|].
  assert (E : - ((2 - g) * N * (2 * S + N) / r4) / - ((2 - g) * S * (2 * S + N) / r4) = N / S) by (field; repeat split; lra).
  rewrite E. assert (0 <= N / S) by (apply Rmult_le_pos; [lra|left; now apply Rinv_0_lt_compat]).
  destruct (Req_EM_T _ 0); [lra|]. apply (f_equal Some). rewrite moments_eq. cbn [fst]. rewrite M2. field. repeat split; lra.
Qed.
(** without noise the ratio is not finite *)
Lemma snr_noise_free k e S : (1 <= k)%nat -> e <> [] -> 0 < S -> kurtosis (map ZtoC (cal_symbols_qam k)) < 2 -> moment2 e = S ->
  moment4 e = kurtosis (map ZtoC (cal_symbols_qam k)) * S ^ 2 -> cal_snr_qam e k = None /\ cal_s0 e k = Some S.
Proof.
  intros Hk He HS G M2 M4. pose proof (gamma_pos k Hk) as P. split.
  - unfold cal_snr_qam. rewrite (gamma_kurtosis k Hk). set (g := kurtosis _) in *.
    assert (0 < g * S ^ 2) by (apply Rmult_lt_0_compat; [assumption|apply pow_lt; lra]).
    rewrite (s1_s2_ideal g e S 0); try assumption; try lra.
    destruct (Req_EM_T _ 0) as [_|Z]; [reflexivity|]. exfalso. apply Z. field. lra.
  - apply (s0_exact k e S 0); try assumption; lra.
Qed.

(** fourth moment of the square alphabets *)
Lemma sum_4 (c : R) m :
  Rsum (map (fun i => (2 * INR i - c) ^ 4) (seq 0 m))
  = 16 * (INR m ^ 5 / 5 - INR m ^ 4 / 2 + INR m ^ 3 / 3 - INR m / 30) - 32 * c * (INR m ^ 4 / 4 - INR m ^ 3 / 2 + INR m ^ 2 / 4)
    + 24 * c ^ 2 * (INR m ^ 3 / 3 - INR m ^ 2 / 2 + INR m / 6) - 8 * c ^ 3 * (INR m ^ 2 / 2 - INR m / 2) + c ^ 4 * INR m.
Proof.
  induction m as [|m IH]; [unfold Rsum; cbn; lra|]. rewrite Rsum_map_seq_S, IH, S_INR. field.
Qed.
Lemma pam_fourth n : Rsum (map (fun i => IZR (pam_level n i) ^ 4) (seq 0 n)) = INR n * (INR n ^ 2 - 1) * (3 * INR n ^ 2 - 7) / 15.
Proof.
  rewrite (map_ext _ (fun i => (2 * INR i - (INR n - 1)) ^ 4)) by (intros; rewrite pam_R; reflexivity). rewrite sum_4. field.
Qed.
Lemma grid_fourth m n : Rsum (map (fun z => Cnorm2 (ZtoC z) ^ 2) (grid m n (fun i j => (pam_level m i, pam_level n j))))
  = INR n * (INR m * (INR m ^ 2 - 1) * (3 * INR m ^ 2 - 7) / 15) + 2 * (INR m * (INR m ^ 2 - 1) / 3) * (INR n * (INR n ^ 2 - 1) / 3)
    + INR m * (INR n * (INR n ^ 2 - 1) * (3 * INR n ^ 2 - 7) / 15).
Proof.
  rewrite Rsum_grid.
  rewrite (map_ext _ (fun i => INR n * IZR (pam_level m i) ^ 4 + (2 * (INR n * (INR n * INR n - 1) / 3) * IZR (pam_level m i) ^ 2 + INR n * (INR n ^ 2 - 1) * (3 * INR n ^ 2 - 7) / 15))).
  - rewrite !Rsum_map_add, !Rsum_map_scal, Rsum_map_const, pam_power, pam_fourth, seq_length. field.
  - intros i. rewrite (map_ext _ (fun j => IZR (pam_level m i) ^ 4 + (2 * IZR (pam_level m i) ^ 2 * IZR (pam_level n j) ^ 2 + IZR (pam_level n j) ^ 4))).
    + rewrite !Rsum_map_add, Rsum_map_const, Rsum_map_scal, pam_power, pam_fourth, seq_length. ring.
    + intros j. rewrite Cnorm2_ZtoC. cbn [fst snd]. ring.
Qed.
Lemma square_kurtosis h : (1 <= h)%nat -> kurtosis (map ZtoC (cal_symbols_qam (2 * h))) = (7 * 4 ^ h - 13) / (5 * (4 ^ h - 1)).
Proof.
  intros Hh. assert (O : Nat.odd (2 * h) = false) by (rewrite Nat.odd_mul; reflexivity).
  assert (E2 : moment2 (map ZtoC (cal_symbols_qam (2 * h))) = 2 / 3 * (INR (2 ^ h) ^ 2 - 1)).
  { unfold moment2. rewrite map_map. rewrite (map_ext _ (fun z => Cabs (ZtoC z) ^ 2)) by (intros; symmetry; apply Cabs_pow2). rewrite <- scaling_is_mean.
    unfold cal_scaling_factor_qam. unfold Nat.odd in O. destruct (Nat.even (2 * h)); [|discriminate O].
    replace (2 * h)%nat with (h + h)%nat by lia. rewrite Nat.pow_add_r, mult_INR. ring. }
  unfold kurtosis. rewrite E2. unfold moment4, Rmean, cal_symbols_qam. rewrite O. replace (2 * h / 2)%nat with h by (rewrite Nat.mul_comm, Nat.div_mul; lia).
  rewrite !map_length, square_qam_length, map_map. unfold square_qam. cbv zeta. rewrite grid_fourth.
  replace (2 ^ (2 * h))%nat with (2 ^ h * 2 ^ h)%nat by (rewrite <- Nat.pow_add_r; f_equal; lia). rewrite mult_INR.
  replace (4 ^ h) with (INR (2 ^ h) ^ 2). 2: { rewrite pow_INR, <- pow_mult, Nat.mul_comm, pow_mult. f_equal. cbn; lra. }
  pose proof (INR_pow2_pos h). assert (1 < INR (2 ^ h)).
  { apply (lt_INR 1). rewrite <- (Nat.pow_0_r 2). apply Nat.pow_lt_mono_r; lia. }
  field. repeat split; nra.
Qed.
Lemma square_kurtosis_lt h : (1 <= h)%nat -> kurtosis (map ZtoC (cal_symbols_qam (2 * h))) < 2.
Proof.
  intros Hh. rewrite square_kurtosis by exact Hh. assert (4 <= 4 ^ h) by (replace 4 with (4 ^ 1) at 1 by ring; apply Rle_pow; lra || lia).
  apply (Rmult_lt_reg_r (5 * (4 ^ h - 1))); [lra|]. unfold Rdiv. rewrite Rmult_assoc, Rinv_l by lra. lra.
Qed.

(** the cross alphabets: two overlapping bars *)
Lemma NoDup_app_intro {A} (l l' : list A) : NoDup l -> NoDup l' -> (forall x, In x l -> ~ In x l') -> NoDup (l ++ l').
Proof.
  intros H. induction H as [|x l Hx Hl IH]; intros H' D; [exact H'|]. cbn. constructor.
  - rewrite in_app_iff. intros [I|I]; [contradiction|]. apply (D x); [now left|exact I].
  - apply IH; [exact H'|]. intros y Hy. apply D. now right.
Qed.
Definition box (m n : nat) : list (Z * Z) := grid m n (fun i j => (pam_level m i, pam_level n j)).
Lemma box_NoDup m n : NoDup (box m n).
Proof. apply grid_NoDup; intros i j i' j' _ _ _ _ E; injection E as E1 E2. apply pam_level_inj in E1, E2; auto. Qed.
Lemma box_in p q x y : In (x, y) (box (2 * p) (2 * q))
  <-> Z.Odd x /\ Z.Odd y /\ (Z.abs x < 2 * Z.of_nat p)%Z /\ (Z.abs y < 2 * Z.of_nat q)%Z.
Proof.
  unfold box. rewrite in_grid. unfold pam_level. split.
  - intros (i & j & Hi & Hj & E). apply pair_equal_spec in E as (<- & <-). repeat split.
    + exists (Z.of_nat i - Z.of_nat p)%Z. lia.
    + exists (Z.of_nat j - Z.of_nat q)%Z. lia.
    + lia.
    + lia.
  - intros ((a & ->) & (b & ->) & Hx & Hy). exists (Z.to_nat (a + Z.of_nat p)), (Z.to_nat (b + Z.of_nat q)). repeat split; try lia. f_equal; lia.
Qed.
Lemma filter_split {A} (f : A -> R) (t : A -> bool) l : Rsum (map f l) = Rsum (map f (filter t l)) + Rsum (map f (filter (fun x => negb (t x)) l)).
Proof.
  induction l as [|x l IH]; [unfold Rsum; cbn; lra|]. cbn [filter map]. rewrite Rsum_cons, IH. destruct (t x); cbn [negb map]; rewrite Rsum_cons; lra.
Qed.
Lemma cross_sum (f : Z * Z -> R) n : (2 <= n)%nat ->
  Rsum (map f (cross_qam n)) = Rsum (map f (box (2 ^ n) (3 * 2 ^ (n - 1)))) + Rsum (map f (box (3 * 2 ^ (n - 1)) (2 ^ n))) - Rsum (map f (box (2 ^ n) (2 ^ n))).
Proof.
  intros Hn. set (q := (2 ^ (n - 2))%nat). assert (E1 : (2 ^ n = 2 * (2 * q))%nat).
  { unfold q. rewrite <- !Nat.pow_succ_r'. f_equal. lia. }
  assert (E2 : (3 * 2 ^ (n - 1) = 2 * (3 * q))%nat) by (unfold q; replace (n - 1)%nat with (S (n - 2)) by lia; rewrite Nat.pow_succ_r'; lia).
  assert (EZ : (2 ^ Z.of_nat n = 4 * Z.of_nat q)%Z) by (rewrite <- pow2_Z, E1; lia). rewrite E2, E1.
  set (t := fun z : Z * Z => (4 * Z.of_nat q <? Z.abs (fst z))%Z).
  rewrite (filter_split f t (box (2 * (3 * q)) (2 * (2 * q)))).
  assert (P1 : Permutation (filter (fun z => negb (t z)) (box (2 * (3 * q)) (2 * (2 * q)))) (box (2 * (2 * q)) (2 * (2 * q)))).
  { apply NoDup_Permutation; [apply NoDup_filter, box_NoDup|apply box_NoDup|]. intros (x, y). rewrite filter_In, !box_in. unfold t. cbn [fst].
    split; [intros ((Ox & Oy & Bx & By) & T)|intros (Ox & Oy & Bx & By)]; [|split; [|lia]]; repeat split; try assumption; try lia. destruct Ox as (a & ->). lia. }
  assert (P2 : Permutation (cross_qam n) (box (2 * (2 * q)) (2 * (3 * q)) ++ filter t (box (2 * (3 * q)) (2 * (2 * q))))).
  { apply NoDup_Permutation; [apply cross_qam_NoDup| |].
    - apply NoDup_app_intro; [apply box_NoDup|apply NoDup_filter, box_NoDup|].
      intros (x, y) H1 H2. rewrite filter_In in H2. rewrite !box_in in *. unfold t in H2. cbn [fst] in H2. lia.
    - intros (x, y). rewrite in_app_iff, filter_In, !box_in, cross_qam_in by exact Hn. unfold cross_point, t. cbn [fst snd]. rewrite EZ. split.
      + intros (Ox & Oy & Bx & By & Nb). destruct (Z.ltb_spec (4 * Z.of_nat q) (Z.abs x)) as [L|L]; [right|left]; repeat split; try assumption; try lia.
        * destruct Oy as (a & ->). lia.
        * destruct Ox as (a & ->). lia.
      + intros [(Ox & Oy & Bx & By)|((Ox & Oy & Bx & By) & T)]; repeat split; try assumption; lia. }
  rewrite (Rsum_perm _ _ (Permutation_map f P1)), (Rsum_perm _ _ (Permutation_map f P2)), map_app, Rsum_app. ring.
Qed.
Lemma box_power m n : Rsum (map (fun z => Cnorm2 (ZtoC z)) (box m n)) = INR m * INR n * (INR m ^ 2 + INR n ^ 2 - 2) / 3.
Proof.
  unfold box. rewrite Rsum_grid. rewrite (map_ext _ (fun i => INR n * IZR (pam_level m i) ^ 2 + INR n * (INR n * INR n - 1) / 3)).
  - rewrite Rsum_map_add, Rsum_map_scal, Rsum_map_const, pam_power, seq_length. field.
  - intros i. rewrite (map_ext _ (fun j => IZR (pam_level m i) ^ 2 + IZR (pam_level n j) ^ 2)).
    + rewrite Rsum_map_add, Rsum_map_const, pam_power, seq_length. reflexivity.
    + intros j. rewrite Cnorm2_ZtoC; reflexivity.
Qed.
Lemma cross_moments n : (2 <= n)%nat ->
  moment2 (map ZtoC (cal_symbols_qam (2 * n + 1))) = (31 * 4 ^ (n - 1) - 4) / 6 /\
  moment4 (map ZtoC (cal_symbols_qam (2 * n + 1))) = (3251 * (4 ^ (n - 1)) ^ 2 - 1240 * 4 ^ (n - 1) + 104) / 90.
Proof.
  intros Hn. assert (O : Nat.odd (2 * n + 1) = true) by (rewrite Nat.odd_add, Nat.odd_mul; reflexivity).
  unfold cal_symbols_qam. rewrite O. replace ((2 * n + 1 - 1) / 2)%nat with n by (rewrite Nat.add_sub, Nat.mul_comm, Nat.div_mul; lia).
  unfold moment2, moment4, Rmean. rewrite !map_length, !map_map, !cross_qam_length.
  rewrite (cross_sum (fun z => Cnorm2 (ZtoC z)) n Hn), (cross_sum (fun z => Cnorm2 (ZtoC z) ^ 2) n Hn), !box_power. unfold box. rewrite !grid_fourth.
  set (q := (2 ^ (n - 1))%nat). assert (E : (2 ^ n = 2 * q)%nat) by (unfold q; rewrite <- Nat.pow_succ_r'; f_equal; lia).
  assert (L : (2 ^ (2 * n + 1) = 8 * (q * q))%nat).
  { replace (2 * n + 1)%nat with (S (n + n)) by lia. rewrite Nat.pow_succ_r', Nat.pow_add_r, E. lia. }
  rewrite L, E. assert (Q : 4 ^ (n - 1) = INR q * INR q).
  { unfold q. rewrite pow_INR, <- Rpow_mult_distr. f_equal. }
  rewrite Q, !mult_INR. assert (0 < INR q) by (apply INR_pow2_pos).
  replace (INR 2) with 2 by (cbn; lra). replace (INR 3) with 3 by (cbn; lra). replace (INR 8) with 8 by (cbn; lra).
  split; field; lra.
Qed.
Lemma cross_kurtosis_lt n : kurtosis (map ZtoC (cal_symbols_qam (2 * n + 1))) < 2.
Proof.
  unfold kurtosis. destruct (Nat.lt_ge_cases n 2) as [H|H].
  - assert (n = 0 \/ n = 1)%nat as [->| ->] by lia; unfold moment4, moment2, Rmean, Rsum, Cnorm2; cbn; lra.
  - destruct (cross_moments n H) as (-> & ->). assert (Q : 4 <= 4 ^ (n - 1)) by (replace 4 with (4 ^ 1) at 1 by ring; apply Rle_pow; lra || lia).
    set (x := 4 ^ (n - 1)) in *. assert (0 < (31 * x - 4) / 6) by lra.
    apply (Rmult_lt_reg_r (((31 * x - 4) / 6) ^ 2)); [now apply pow_lt|]. unfold Rdiv at 1. rewrite Rmult_assoc, Rinv_l, Rmult_1_r; [nra|].
    apply pow_nonzero. lra.
Qed.
Lemma kurtosis_lt k : (1 <= k)%nat -> kurtosis (map ZtoC (cal_symbols_qam k)) < 2.
Proof.
  intros Hk. destruct (Nat.Even_or_Odd k) as [(h & ->)|(h & ->)]; [apply square_kurtosis_lt; lia|apply cross_kurtosis_lt].
Qed.
(** ** blind estimate of QPSK *)
Lemma Cpow_mul a b n : Cpow (a * b)%C n = (Cpow a n * Cpow b n)%C.
Proof. induction n as [|n IH]; cbn [Cpow]; [apply C_eq; cbn; ring|]. rewrite IH. ring. Qed.
Lemma Cpow_expi t n : Cpow (Cexpi t) n = Cexpi (INR n * t).
Proof.
  induction n as [|n IH]; [cbn [Cpow INR]; rewrite Rmult_0_l, Cexpi_0; reflexivity|].
  cbn [Cpow]. rewrite IH, <- Cexpi_add, S_INR. f_equal. ring.
Qed.
Lemma Cpow_scal r z n : Cpow (Cscal r z) n = Cscal (r ^ n) (Cpow z n).
Proof. induction n as [|n IH]; cbn [Cpow pow]; [apply C_eq; cbn; ring|]. rewrite IH. apply C_eq; cbn; ring. Qed.
Lemma sqrt4 r : 0 <= r -> sqrt (sqrt (r ^ 4)) = r.
Proof.
  intros H. replace (r ^ 4) with ((r * r) * (r * r)) by ring. rewrite (sqrt_square (r * r)) by (apply Rmult_le_pos; exact H). now apply sqrt_square.
Qed.
(** a sample in its quadrant: a quarter turn, the diagonal and a number w within 45 degrees of the real axis *)
Lemma root_of_sample m (w : C) : w <> C0 -> - (PI / 4) < Carg w <= PI / 4 ->
  fourth_root (- Cpow (Cexpi (PI / 4) * (Cpow Ci m * w)) 4)%C = w.
Proof.
  intros Hw Ha. assert (E : (- Cpow (Cexpi (PI / 4) * (Cpow Ci m * w)) 4)%C = Cpow w 4).
  { rewrite !Cpow_mul. rewrite Cpow_expi. replace (INR 4 * (PI / 4)) with PI by (cbn [INR]; field).
    assert (I4 : Cpow (Cpow Ci m) 4 = C1).
    { assert (I : Ci = Cexpi (PI / 2)) by (unfold Ci, Cexpi; rewrite cos_PI2, sin_PI2; reflexivity). rewrite I, !Cpow_expi.
      replace (INR 4 * (INR m * (PI / 2))) with (0 + IZR (Z.of_nat m) * (2 * PI)) by (rewrite <- INR_IZR_INZ; cbn [INR]; field).
      rewrite Cexpi_turn. apply Cexpi_0. }
    rewrite I4. assert (P : Cexpi PI = (- C1)%C) by (unfold Cexpi, Copp, C1; rewrite cos_PI, sin_PI; cbn [fst snd]; rewrite Ropp_0; reflexivity). rewrite P. ring. }
  rewrite E. unfold fourth_root. pose proof (Cabs_pos w Hw) as Pw.
  assert (W : Cpow w 4 = Cscal (Cabs w ^ 4) (Cexpi (4 * Carg w))).
  { rewrite (Carg_polar w) at 1. rewrite Cpow_scal, Cpow_expi. f_equal. f_equal. cbn [INR]. ring. }
  rewrite W. destruct (Ceq_dec _ C0) as [Z|_]; [exfalso; apply (Cscal_expi_neq0 (Cabs w ^ 4) (4 * Carg w)); [now apply pow_lt|exact Z]|].
  rewrite Cabs_scal_expi by (left; now apply pow_lt). rewrite sqrt4 by lra.
  rewrite Carg_unique; [|now apply pow_lt|lra]. replace (4 * Carg w / 4) with (Carg w) by field. symmetry. apply Carg_polar.
Qed.
Lemma variance_about (m : C) l : Rsum (map (fun z => Cnorm2 (z - m)%C) l)
  = Rsum (map Cnorm2 l) - 2 * (fst m * fst (Csum l) + snd m * snd (Csum l)) + INR (length l) * Cnorm2 m.
Proof.
  unfold Csum. induction l as [|z l IH]; [unfold Rsum; cbn; ring|].
  cbn [map length fold_right]. rewrite !Rsum_cons, IH, S_INR. unfold Cnorm2; cbn [fst snd Csub Cadd]. ring.
Qed.
Lemma variance_power l : l <> [] -> moment2 l = Cnorm2 (Cmean l) + variance l.
Proof.
  intros Hl. unfold moment2, variance. assert (P : 0 < INR (length l)) by (apply lt_0_INR; destruct l; [congruence|cbn; lia]).
  unfold Rmean. rewrite !map_length. rewrite variance_about.
  assert (M1 : fst (Csum l) = INR (length l) * fst (Cmean l)) by (unfold Cmean; cbn [fst Cscal]; field; lra).
  assert (M2 : snd (Csum l) = INR (length l) * snd (Cmean l)) by (unfold Cmean; cbn [snd Cscal]; field; lra).
  rewrite M1, M2. unfold Cnorm2 at 2 4. field. lra.
Qed.
Lemma blind_qpsk ms ws : length ms = length ws -> (forall w, In w ws -> w <> C0 /\ - (PI / 4) < Carg w <= PI / 4) -> 0 < variance ws ->
  cal_snr_blind_qpsk (map (fun p => (Cexpi (PI / 4) * (Cpow Ci (fst p) * snd p))%C) (combine ms ws))
  = Some (10 * (ln (Cnorm2 (Cmean ws) / variance ws + 1) / ln 10)).
Proof.
  intros Hl Hw Hv. unfold cal_snr_blind_qpsk. rewrite map_map.
  assert (E : map (fun p => fourth_root (- Cpow (Cexpi (PI / 4) * (Cpow Ci (fst p) * snd p)) 4)%C) (combine ms ws) = ws).
  { clear Hv. revert ws Hl Hw. induction ms as [|m ms IH]; intros [|w ws] Hl Hw; try discriminate; [reflexivity|].
    cbn [combine map fst snd]. apply (f_equal2 cons); [apply root_of_sample; apply Hw; now left|]. apply IH; [now injection Hl|]. intros; apply Hw; now right. }
  rewrite E. destruct ws as [|w ws]; [exfalso; unfold variance, Rmean, Rsum in Hv; cbn in Hv; unfold Rdiv in Hv; lra|].
  set (l := w :: ws) in *. change (Rmean (map Cnorm2 l)) with (moment2 l). change (Rmean (map (fun z => Cnorm2 (z - Cmean l)%C) l)) with (variance l).
  destruct (Req_EM_T _ 0); [lra|]. rewrite (variance_power l) by discriminate.
  assert (Q : (Cnorm2 (Cmean l) + variance l) / variance l = Cnorm2 (Cmean l) / variance l + 1) by (field; lra). rewrite Q.
  destruct (Rlt_dec _ _) as [_|Z]; [reflexivity|]. exfalso. apply Z.
  assert (0 <= Cnorm2 (Cmean l) / variance l) by (apply Rmult_le_pos; [apply Cnorm2_nonneg|left; now apply Rinv_0_lt_compat]). lra.
Qed.
