(** Frequency offset from the spectrum of the fourth power *)
From Coq Require Import String List ZArith Bool Lia ZifyBool ZifyNat Reals Lra Psatz Arith.
From Verif Require Import Common.Py Common.ListX Common.Cplx Common.SumX Common.Angle Common.Dft Model.Sync Model.Phase Model.Estimate
  Spec.EstimateS Proofs.DecisionP Proofs.CorrP Proofs.EqualP Proofs.PhaseQ Proofs.EstimateP.
Import ListNotations.
Open Scope list_scope.
Local Open Scope R_scope.

Lemma Rabs_le_both x e : Rabs x <= e -> - e <= x <= e.
Proof. unfold Rabs. destruct (Rcase_abs x); lra. Qed.
Lemma classic_turns t : turns t \/ ~ turns t.
Proof.
  destruct (Req_dec (cos t) 1) as [E|E]; [left; now apply cos_one_turns|right].
  intros (k & ->). apply E. assert (X : Cexpi (0 + IZR k * (2 * PI)) = Cexpi 0) by apply Cexpi_turn.
  rewrite Rplus_0_l in X. unfold Cexpi in X. apply (f_equal fst) in X. cbn [fst] in X. rewrite X. apply cos_0.
Qed.

(** ** geometric sums *)
Definition G (m : nat) (th : R) : C := csum m (fun n => Cexpi (th * INR n)).
Lemma G_abs m th : Cabs (G m th) <= INR m.
Proof.
  unfold G. induction m as [|m IH]; [rewrite csum_0, (proj2 (Cabs_0 C0) eq_refl); cbn; lra|]. rewrite csum_S, S_INR.
  eapply Rle_trans; [apply Cabs_triang|]. rewrite Cabs_expi. lra.
Qed.
Lemma turns_half th : ~ turns th -> Cabs (C1 + Cexpi th)%C < 2.
Proof.
  intros H. assert (N : cos th < 1).
  { destruct (COS_bound th) as (_ & [L|L]); [exact L|]. exfalso. apply H. now apply cos_one_turns. }
  unfold Cabs. replace 2 with (sqrt 4) by (replace 4 with (2 * 2) by ring; apply sqrt_square; lra). apply sqrt_lt_1_alt. split; [apply Cnorm2_nonneg|].
  unfold Cnorm2, Cexpi, C1. cbn [fst snd Cadd]. pose proof (sin2_cos2 th) as T. unfold Rsqr in T. nra.
Qed.
Lemma G_strict m th : (2 <= m)%nat -> ~ turns th -> Cabs (G m th) < INR m.
Proof.
  intros Hm H. destruct m as [|[|m]]; [lia|lia|]. assert (E : G (S (S m)) th = (C1 + Cexpi th + csum m (fun n => Cexpi (th * INR (S (S n)))))%C).
  { unfold G. rewrite !csum_Sl. cbn [INR]. rewrite Rmult_0_r, Cexpi_0, Rmult_1_r. ring. }
  rewrite E. eapply Rle_lt_trans; [apply Cabs_triang|]. rewrite !S_INR.
  assert (B : Cabs (csum m (fun n => Cexpi (th * INR (S (S n))))) <= INR m).
  { clear. induction m as [|m IH]; [rewrite csum_0, (proj2 (Cabs_0 C0) eq_refl); cbn; lra|]. rewrite csum_S. eapply Rle_trans; [apply Cabs_triang|]. rewrite Cabs_expi.
    rewrite (S_INR m). lra. }
  pose proof (turns_half th H). lra.
Qed.
Lemma G_turns m th : turns th -> G m th = RtoC (INR m).
Proof.
  intros (k & ->). unfold G. rewrite (csum_ext _ _ (fun _ => C1)); [rewrite csum_const; apply C_eq; cbn; ring|].
  intros n _. replace (IZR k * (2 * PI) * INR n) with (0 + IZR (k * Z.of_nat n) * (2 * PI)) by (rewrite mult_IZR, <- INR_IZR_INZ; ring).
  now rewrite Cexpi_turn, Cexpi_0.
Qed.
Lemma G_mul m th : (G m th * (Cexpi th - C1))%C = (Cexpi (th * INR m) - C1)%C.
Proof.
  unfold G. induction m as [|m IH]; [rewrite csum_0; cbn [INR]; rewrite Rmult_0_r, Cexpi_0; apply C_eq; cbn; ring|].
  rewrite csum_S. replace ((csum m (fun n => Cexpi (th * INR n)) + Cexpi (th * INR m)) * (Cexpi th - C1))%C
    with (csum m (fun n => Cexpi (th * INR n)) * (Cexpi th - C1) + (Cexpi (th * INR m) * Cexpi th - Cexpi (th * INR m)))%C by ring.
  rewrite IH, <- Cexpi_add, S_INR. replace (th * (INR m + 1)) with (th * INR m + th) by ring. ring.
Qed.
Lemma chord th : Cnorm2 (Cexpi th - C1)%C = 2 - 2 * cos th.
Proof. unfold Cnorm2, Cexpi, C1. cbn [fst snd Csub Cadd Copp]. pose proof (sin2_cos2 th) as T. unfold Rsqr in T. lra. Qed.
Lemma cos_near t al : 0 <= al <= PI -> cos al <= cos t -> exists a, Rabs (t - IZR a * (2 * PI)) <= al.
Proof.
  intros Ha Hc. destruct (Carg_scal_expi 1 t ltac:(lra)) as (a & E). set (u := Carg (Cscal 1 (Cexpi t))) in *.
  exists (- a)%Z. assert (U : t - IZR (- a) * (2 * PI) = u) by (rewrite opp_IZR; lra). rewrite U.
  pose proof (Carg_bounds (Cscal 1 (Cexpi t))) as B. fold u in B.
  assert (C : cos (Rabs u) = cos t).
  { assert (CU : cos u = cos t).
    { assert (X : Cexpi t = Cexpi u) by (rewrite <- U, opp_IZR; replace (t - - IZR a * (2 * PI)) with (t + IZR a * (2 * PI)) by ring; now rewrite Cexpi_turn).
      unfold Cexpi in X. now apply (f_equal fst) in X. }
    unfold Rabs. destruct (Rcase_abs u); [rewrite cos_neg|]; exact CU. }
  destruct (Rle_lt_dec (Rabs u) al) as [L|L]; [exact L|exfalso].
  assert (cos (Rabs u) < cos al).
  { pose proof (Rabs_pos u). assert (Rabs u <= PI) by (apply Rabs_le; lra). apply cos_decreasing_1; lra. }
  lra.
Qed.
Lemma near_int x : exists r : Z, Rabs (x - IZR r) <= 1 / 2.
Proof.
  destruct (archimed (x + 1 / 2)) as (A & B). exists (up (x + 1 / 2) - 1)%Z. rewrite minus_IZR. apply Rabs_le. lra.
Qed.

(** ** the spectrum of a tone of x bins, m of n samples *)
Section Spectrum.
Variables (n m : nat) (c : C) (x : R) (y : list C).
Hypothesis (Hn : (1 <= n)%nat).
Hypothesis (Hy : length y = n).
Hypothesis (Hm : (m <= n)%nat).
Hypothesis (Hc : c <> C0).
Hypothesis (Hin : forall i, (i < m)%nat -> nth i y C0 = (c * Cexpi (2 * PI * x * INR i / INR n))%C).
Hypothesis (Hout : forall i, (m <= i)%nat -> nth i y C0 = C0).
Let th (q : nat) : R := 2 * PI * (x - INR q) / INR n.
Let posn : 0 < INR n. Proof. apply lt_0_INR. lia. Qed.

Lemma bin q : (q < n)%nat -> nth q (dft y) C0 = (c * G m (th q))%C.
Proof.
  intros Hq. rewrite dft_nth by lia. rewrite Hy. replace n with (m + (n - m))%nat at 1 by lia. rewrite csum_app.
  rewrite (csum_zero (n - m)) by (intros i Hi; rewrite Hout by lia; ring).
  unfold G. rewrite <- csum_scal. rewrite (csum_ext m _ (fun i => (c * Cexpi (th q * INR i))%C)); [ring|].
  intros i Hi. rewrite Hin by exact Hi. replace (c * Cexpi (2 * PI * x * INR i / INR n) * Cexpi (- (2 * PI * INR q * INR i / INR n)))%C
    with (c * (Cexpi (2 * PI * x * INR i / INR n) * Cexpi (- (2 * PI * INR q * INR i / INR n))))%C by ring.
  rewrite <- Cexpi_add. f_equal. f_equal. unfold th. field. lra.
Qed.
Lemma peak k : argmax (map Rabs (map (fun z => Cabs z ^ 2) (dft y))) = Ok k ->
  (k < n)%nat /\ forall q, (q < n)%nat -> Cabs (G m (th q)) <= Cabs (G m (th k)).
Proof.
  intros H. apply argmax_spec in H as (v & H1 & H2 & _).
  assert (Hk : (k < n)%nat) by (apply nth_error_Some_lt in H1; rewrite !map_length, dft_length, Hy in H1; exact H1).
  assert (V : forall q, (q < n)%nat -> nth_error (map Rabs (map (fun z => Cabs z ^ 2) (dft y))) q = Some ((Cabs c * Cabs (G m (th q))) ^ 2)).
  { intros q Hq. rewrite !nth_error_map. rewrite (nth_error_nth' (dft y) C0) by (rewrite dft_length; lia). cbn [option_map].
    rewrite bin, Cabs_mul by exact Hq. rewrite Rabs_right; [reflexivity|]. apply Rle_ge, pow2_ge_0. }
  split; [exact Hk|]. intros q Hq. specialize (H2 q _ (V q Hq)). rewrite (V k Hk) in H1. injection H1 as <-.
  pose proof (Cabs_pos c Hc) as Pc. pose proof (Cabs_nonneg (G m (th q))). pose proof (Cabs_nonneg (G m (th k))).
  destruct (Rle_lt_dec (Cabs (G m (th q))) (Cabs (G m (th k)))) as [L|L]; [exact L|exfalso].
  assert (Cabs c * Cabs (G m (th k)) < Cabs c * Cabs (G m (th q))) by (apply Rmult_lt_compat_l; assumption).
  assert (0 <= Cabs c * Cabs (G m (th k))) by (apply Rmult_le_pos; lra).
  assert ((Cabs c * Cabs (G m (th k))) ^ 2 < (Cabs c * Cabs (G m (th q))) ^ 2) by (cbn [pow]; nra). lra.
Qed.
Lemma th_turns q : turns (th q) <-> exists a : Z, x = INR q + IZR a * INR n.
Proof.
  unfold turns, th. pose proof PI_RGT_0. split; intros (a & E); exists a.
  - apply (Rmult_eq_reg_l (2 * PI / INR n)).
    2: { apply Rgt_not_eq. apply Rdiv_lt_0_compat; lra. }
    replace (2 * PI / INR n * (INR q + IZR a * INR n)) with (2 * PI / INR n * INR q + IZR a * (2 * PI)) by (field; lra). rewrite <- E. field. lra.
  - rewrite E. field. lra.
Qed.
(** a bin number is some q below n and a multiple of n *)
Lemma int_bin (b : Z) : exists q a, (q < n)%nat /\ IZR b = INR q + IZR a * INR n.
Proof.
  exists (Z.to_nat (b mod Z.of_nat n)), (b / Z.of_nat n)%Z. pose proof (Z.mod_pos_bound b (Z.of_nat n) ltac:(lia)). split; [lia|].
  rewrite (INR_IZR_INZ n), <- mult_IZR, INR_IZR_INZ, <- plus_IZR, Z2Nat.id by lia. f_equal. pose proof (Z.div_mod b (Z.of_nat n) ltac:(lia)). lia.
Qed.
Lemma peak_on_grid k (b : Z) : (2 <= m)%nat -> x = IZR b -> argmax (map Rabs (map (fun z => Cabs z ^ 2) (dft y))) = Ok k ->
  (k < n)%nat /\ exists a : Z, x = INR k + IZR a * INR n.
Proof.
  intros H2 Hx Hk. destruct (peak k Hk) as (K & P). split; [exact K|]. destruct (int_bin b) as (q & a & Hq & E).
  specialize (P q Hq). assert (T : turns (th q)) by (apply th_turns; exists a; lra). rewrite (G_turns m (th q) T) in P.
  replace (Cabs (RtoC (INR m))) with (INR m) in P. 2: { unfold Cabs, Cnorm2, RtoC. cbn [fst snd]. rewrite Rmult_0_l, Rplus_0_r, sqrt_square; [reflexivity|apply pos_INR]. }
  apply th_turns. destruct (classic_turns (th k)) as [T'|T']; [exact T'|]. pose proof (G_strict m (th k) H2 T'). lra.
Qed.
Lemma peak_full k : m = n -> argmax (map Rabs (map (fun z => Cabs z ^ 2) (dft y))) = Ok k ->
  (k < n)%nat /\ exists a : Z, Rabs (x - (INR k + IZR a * INR n)) <= 1 / 2.
Proof.
  intros Em Hk. destruct (peak k Hk) as (K & P). split; [exact K|]. destruct (near_int x) as (r & Hr). destruct (int_bin r) as (q & a & Hq & E).
  pose proof PI_RGT_0 as hpi. specialize (P q Hq). rewrite Em in P.
  assert (KK : forall p, Cnorm2 (G n (th p)) * (2 - 2 * cos (th p)) = 2 - 2 * cos (2 * PI * x)).
  { intros p. rewrite <- !chord, <- Cnorm2_mul, G_mul. f_equal. f_equal. replace (th p * INR n) with (2 * PI * x + IZR (- Z.of_nat p) * (2 * PI)).
    - apply Cexpi_turn.
    - rewrite opp_IZR, <- INR_IZR_INZ. unfold th. field. lra. }
  destruct (Nat.eq_dec n 1) as [N1|N1].
  { assert (k = 0%nat) by lia. subst k. rewrite N1. exists r. cbn [INR]. replace (0 + IZR r * 1) with (IZR r) by ring. exact Hr. }
  destruct (classic_turns (th q)) as [T|T].
  - rewrite (G_turns n (th q) T) in P.
    replace (Cabs (RtoC (INR n))) with (INR n) in P. 2: { unfold Cabs, Cnorm2, RtoC. cbn [fst snd]. rewrite Rmult_0_l, Rplus_0_r, sqrt_square; [reflexivity|apply pos_INR]. }
    destruct (classic_turns (th k)) as [T'|T']; [|pose proof (G_strict n (th k) ltac:(lia) T'); lra].
    apply th_turns in T' as (a' & E'). exists a'. rewrite <- E'. replace (x - x) with 0 by ring. rewrite Rabs_R0. lra.
  - assert (K0 : 0 < 2 - 2 * cos (2 * PI * x)).
    { pose proof (COS_bound (2 * PI * x)) as (_ & [L|L]); [lra|]. exfalso. apply T. apply cos_one_turns in L as (b & L). apply th_turns.
      assert (X : x = IZR b) by (apply (Rmult_eq_reg_l (2 * PI)); lra). exists a. rewrite <- E, X. f_equal.
      rewrite X, <- minus_IZR, <- abs_IZR in Hr. assert (IZR (Z.abs (b - r)) < 1) by lra. apply lt_IZR in H. lia. }
    assert (Dq : 0 < 2 - 2 * cos (th q)).
    { pose proof (COS_bound (th q)) as (_ & [L|L]); [lra|]. exfalso. apply T. now apply cos_one_turns. }
    assert (Dk : 2 - 2 * cos (th k) <= 2 - 2 * cos (th q)).
    { assert (Sq : Cnorm2 (G n (th q)) <= Cnorm2 (G n (th k))).
      { rewrite <- !Cabs_sqr. pose proof (Cabs_nonneg (G n (th q))). pose proof (Cabs_nonneg (G n (th k))). nra. }
      pose proof (KK q) as Kq. pose proof (KK k) as Kk. pose proof (Cnorm2_nonneg (G n (th q))). pose proof (Cnorm2_nonneg (G n (th k))).
      destruct (Rle_lt_dec (2 - 2 * cos (th k)) (2 - 2 * cos (th q))) as [L|L]; [exact L|exfalso].
      assert (0 < Cnorm2 (G n (th q))) by nra.
      assert (Cnorm2 (G n (th q)) * (2 - 2 * cos (th q)) < Cnorm2 (G n (th k)) * (2 - 2 * cos (th k))); [|lra].
      eapply Rlt_le_trans; [apply Rmult_lt_compat_l; [eassumption|exact L]|]. apply Rmult_le_compat_r; lra. }
    assert (Cq : cos (PI / INR n) <= cos (th q)).
    { assert (Tq : cos (th q) = cos (Rabs (2 * PI * (x - IZR r) / INR n))).
      { assert (X : Cexpi (th q) = Cexpi (2 * PI * (x - IZR r) / INR n)).
        { replace (th q) with (2 * PI * (x - IZR r) / INR n + IZR a * (2 * PI)); [apply Cexpi_turn|]. rewrite E. unfold th. field. lra. }
        unfold Cexpi in X. apply (f_equal fst) in X. cbn [fst] in X. rewrite X. unfold Rabs. destruct (Rcase_abs _); [now rewrite cos_neg|reflexivity]. }
      rewrite Tq. assert (Bd : Rabs (2 * PI * (x - IZR r) / INR n) <= PI / INR n).
      { unfold Rdiv. rewrite !Rabs_mult, (Rabs_right 2), (Rabs_right PI), (Rabs_right (/ INR n)); try (apply Rle_ge; try lra; left; now apply Rinv_0_lt_compat).
        apply Rmult_le_compat_r; [left; now apply Rinv_0_lt_compat|]. nra. }
      assert (PI / INR n <= PI).
      { assert (1 <= INR n) by (apply (le_INR 1); lia). apply (Rmult_le_reg_r (INR n)); [lra|]. unfold Rdiv. rewrite Rmult_assoc, Rinv_l by lra. nra. }
      apply cos_decr_1; try lra; [apply Rabs_pos|]. apply Rle_trans with (Rabs (2 * PI * (x - IZR r) / INR n)); [apply Rabs_pos|exact Bd]. }
    destruct (cos_near (th k) (PI / INR n)) as (a' & A'); [|lra|].
    { split; [left; apply Rdiv_lt_0_compat; lra|]. assert (1 <= INR n) by (apply (le_INR 1); lia). apply (Rmult_le_reg_r (INR n)); [lra|]. unfold Rdiv. rewrite Rmult_assoc, Rinv_l by lra. nra. }
    exists a'. replace (th k - IZR a' * (2 * PI)) with (2 * PI / INR n * (x - (INR k + IZR a' * INR n))) in A' by (unfold th; field; lra).
    rewrite Rabs_mult, Rabs_right in A'. 2: { apply Rle_ge. left. apply Rdiv_lt_0_compat; lra. }
    apply (Rmult_le_reg_l (2 * PI / INR n)); [apply Rdiv_lt_0_compat; lra|]. eapply Rle_trans; [exact A'|]. right. field. lra.
Qed.
End Spectrum.

(** ** one mode *)
Lemma fft_length_next m n : fft_length m = Ok n <-> (1 <= m)%nat /\ next_pow2 m n.
Proof.
  unfold fft_length, next_pow2. destruct m as [|m]; [split; [discriminate|lia]|]. split.
  - intros H. injection H as <-. split; [lia|]. exists (Nat.log2_up (S m)). split; [reflexivity|]. split; [apply Nat.log2_log2_up_spec; lia|].
    intros g Hg. apply (Nat.log2_up_le_mono _ _) in Hg. now rewrite Nat.log2_up_pow2 in Hg by lia.
  - intros (_ & h & -> & Hh & Hmin). apply (f_equal Ok). f_equal. apply Nat.le_antisymm.
    + apply Nat.log2_up_le_mono in Hh. now rewrite Nat.log2_up_pow2 in Hh by lia.
    + apply Hmin. apply Nat.log2_log2_up_spec. lia.
Qed.
Lemma resize_length n x : length (resize n x) = n.
Proof. unfold resize. rewrite app_length, firstn_length, repeat_length. lia. Qed.
Lemma resize_in n x i : (i < Nat.min (length x) n)%nat -> nth i (resize n x) C0 = nth i x C0.
Proof. intros H. unfold resize. rewrite app_nth1 by (rewrite firstn_length; lia). rewrite EqualP.nth_firstn_lt by lia. reflexivity. Qed.
Lemma resize_out n x i : (Nat.min (length x) n <= i)%nat -> nth i (resize n x) C0 = C0.
Proof.
  intros H. destruct (Nat.lt_ge_cases i n) as [L|L]; [|apply nth_overflow; rewrite resize_length; exact L].
  unfold resize. rewrite app_nth2 by (rewrite firstn_length; lia). apply nth_repeat.
Qed.
Lemma tone_of a f os row : (1 <= os)%nat -> qpsk_offset a f os row -> forall i, (i < length row)%nat ->
  nth i (map (fun z => Cpow z 4) row) C0 = (Cpow a 4 * Cexpi (2 * PI * (4 * f) * INR i / INR os))%C.
Proof.
  intros Hos Q i Hi. destruct (nth_error_lt_Some row i Hi) as (z & Hz). destruct (Q i z Hz) as (k & ->).
  apply nth_error_nth'  with (d := C0) in Hi as Hn.
  rewrite (nth_error_nth _ i C0 (x := Cpow (a * Cexpi (INR k * (PI / 2)) * Cexpi (2 * PI * f * INR i / INR os))%C 4)).
  - rewrite !Cpow_mul, !Cpow_expi. replace (INR 4 * (INR k * (PI / 2))) with (0 + IZR (Z.of_nat k) * (2 * PI)) by (rewrite <- INR_IZR_INZ; cbn [INR]; field).
    rewrite Cexpi_turn, Cexpi_0. replace (INR 4 * (2 * PI * f * INR i / INR os)) with (2 * PI * (4 * f) * INR i / INR os).
    2: { assert (INR os <> 0) by (apply not_0_INR; lia). cbn [INR]. field. assumption. }
    ring.
  - rewrite nth_error_map, Hz. reflexivity.
Qed.
Lemma Cpow_neq0 a n : a <> C0 -> Cpow a n <> C0.
Proof.
  intros Ha. induction n as [|n IH]; cbn [Cpow]; [intros E; apply (f_equal fst) in E; cbn in E; lra|]. intros E. apply Cmul_integral in E as [E|E]; contradiction.
Qed.
Lemma offset_row n os row : (1 <= n)%nat -> exists k, argmax (map Rabs (map (fun z => Cabs z ^ 2) (dft (resize n (map (fun z => Cpow z 4) row))))) = Ok k /\
  ((k < n)%nat -> offset_of_row n os row = Ok (IZR (freq_bin n k) / (INR n * (1 / INR os)) / 4)).
Proof.
  intros Hn. destruct (argmin_ok (map Ropp (map Rabs (map (fun z => Cabs z ^ 2) (dft (resize n (map (fun z => Cpow z 4) row))))))) as (k & Hk).
  { intros E. apply (f_equal (@length R)) in E. rewrite !map_length, dft_length, resize_length in E. cbn in E. lia. }
  exists k. split; [exact Hk|]. intros L. unfold offset_of_row. cbv zeta.
  unfold argmax. rewrite Hk. cbn [bind]. unfold getn, fftfreq. rewrite !nth_error_map, nth_error_seq by exact L. reflexivity.
Qed.
Section Row.
Variables (n os : nat) (a : C) (f : R) (row : list C).
Hypothesis (Hn : (1 <= n)%nat).
Hypothesis (Hos : (1 <= os)%nat).
Hypothesis (Ha : a <> C0).
Hypothesis (HQ : qpsk_offset a f os row).
Let x : R := 4 * f * INR n / INR os.
Let posn : 0 < INR n. Proof. apply lt_0_INR. lia. Qed.
Let poso : 0 < INR os. Proof. apply lt_0_INR. lia. Qed.
Lemma row_in i : (i < Nat.min (length row) n)%nat -> nth i (resize n (map (fun z => Cpow z 4) row)) C0 = (Cpow a 4 * Cexpi (2 * PI * x * INR i / INR n))%C.
Proof.
  intros Hi. rewrite resize_in by (rewrite map_length; exact Hi). rewrite (tone_of a f os row Hos HQ) by lia. f_equal. f_equal. unfold x. field. lra.
Qed.
Lemma row_out i : (Nat.min (length row) n <= i)%nat -> nth i (resize n (map (fun z => Cpow z 4) row)) C0 = C0.
Proof. intros Hi. apply resize_out. rewrite map_length. exact Hi. Qed.
Lemma row_on_grid (b : Z) : (2 <= length row)%nat -> (2 <= n)%nat -> x = IZR b ->
  exists k (s : Z), offset_of_row n os row = Ok (IZR (freq_bin n k) / (INR n * (1 / INR os)) / 4) /\ (k < n)%nat /\ x = INR k + IZR s * INR n.
Proof.
  intros HL H2 Hx. destruct (offset_row n os row Hn) as (k & Hk & Ho).
  destruct (peak_on_grid n (Nat.min (length row) n) (Cpow a 4) x _ Hn (resize_length _ _) ltac:(lia) (Cpow_neq0 a 4 Ha) row_in row_out k b ltac:(lia) Hx Hk) as (K & s & E).
  exists k, s. split; [exact (Ho K)|]. split; assumption.
Qed.
Lemma row_full : (n <= length row)%nat ->
  exists k (s : Z), offset_of_row n os row = Ok (IZR (freq_bin n k) / (INR n * (1 / INR os)) / 4) /\ (k < n)%nat /\ Rabs (x - (INR k + IZR s * INR n)) <= 1 / 2.
Proof.
  intros HL. destruct (offset_row n os row Hn) as (k & Hk & Ho).
  destruct (peak_full n (Nat.min (length row) n) (Cpow a 4) x _ Hn (resize_length _ _) ltac:(lia) (Cpow_neq0 a 4 Ha) row_in row_out k ltac:(lia) Hk) as (K & s & E).
  exists k, s. split; [exact (Ho K)|]. split; assumption.
Qed.
End Row.
Lemma freq_bin_cases n k : (k < n)%nat -> exists s : Z, IZR (freq_bin n k) = INR k + IZR s * INR n.
Proof.
  intros H. unfold freq_bin. destruct (k <? (n + 1) / 2)%nat; [exists 0%Z; rewrite <- INR_IZR_INZ; ring|].
  exists (-1)%Z. rewrite minus_IZR, <- !INR_IZR_INZ. ring.
Qed.
Lemma freq_bin_range p k : (k < 2 * p)%nat -> (- Z.of_nat p <= freq_bin (2 * p) k < Z.of_nat p)%Z.
Proof. intros H. unfold freq_bin. replace ((2 * p + 1) / 2)%nat with p by lia. destruct (Nat.ltb_spec k p); lia. Qed.
Lemma pow2_double m n : next_pow2 m n -> (2 <= m)%nat -> exists p, n = (2 * p)%nat /\ (1 <= p)%nat.
Proof.
  intros (h & -> & Hh & _) Hm. destruct h as [|h]; [cbn in Hh; lia|]. exists (2 ^ h)%nat. split; [apply Nat.pow_succ_r'|]. pose proof (Nat.pow_nonzero 2 h). lia.
Qed.

(** exact for an offset on the grid of the transform *)
Lemma row_exact m n os a f row (b : Z) : next_pow2 m n -> (2 <= m)%nat -> (1 <= os)%nat -> a <> C0 -> qpsk_offset a f os row -> (2 <= length row)%nat ->
  f = IZR b * INR os / (4 * INR n) -> (- Z.of_nat n <= 2 * b < Z.of_nat n)%Z -> offset_of_row n os row = Ok f.
Proof.
  intros Hp Hm Hos Ha HQ HL Hf Hb. destruct (pow2_double m n Hp Hm) as (p & -> & Hpp).
  assert (posn : 0 < INR (2 * p)) by (apply lt_0_INR; lia). assert (poso : 0 < INR os) by (apply lt_0_INR; lia).
  assert (X : 4 * f * INR (2 * p) / INR os = IZR b) by (rewrite Hf; field; lra).
  destruct (row_on_grid (2 * p) os a f row ltac:(lia) Hos Ha HQ b HL ltac:(lia) X) as (k & s & E & K & Ek). rewrite E. apply (f_equal Ok).
  destruct (freq_bin_cases (2 * p) k K) as (s' & F). pose proof (freq_bin_range p k K) as R.
  assert (B : freq_bin (2 * p) k = b).
  { rewrite X in Ek. assert (D : IZR (freq_bin (2 * p) k) = IZR (b + (s' - s) * Z.of_nat (2 * p))).
    { rewrite plus_IZR, mult_IZR, minus_IZR, <- INR_IZR_INZ, F, Ek. ring. }
    apply eq_IZR in D. assert (s' - s = 0)%Z; [|nia]. nia. }
  rewrite B, Hf. field. lra.
Qed.
(** half a bin otherwise, up to the range of the estimate *)
Lemma row_near m n os a f row : (1 <= m)%nat -> next_pow2 m n -> (1 <= os)%nat -> a <> C0 -> qpsk_offset a f os row -> (n <= length row)%nat ->
  exists v (s : Z), offset_of_row n os row = Ok v /\ Rabs (v - f - IZR s * (INR os / 4)) <= INR os / (8 * INR n) /\
    - (INR os / 8) <= v <= INR os / 8.
Proof.
  intros Hm1 Hp Hos Ha HQ HL. assert (Hn : (1 <= n)%nat) by (destruct Hp as (h & -> & _); pose proof (Nat.pow_nonzero 2 h); lia).
  assert (posn : 0 < INR n) by (apply lt_0_INR; lia). assert (poso : 0 < INR os) by (apply lt_0_INR; lia).
  destruct (row_full n os a f row Hn Hos Ha HQ HL) as (k & s & E & K & Ek). rewrite E. clear E.
  destruct (freq_bin_cases n k K) as (s' & F). eexists. exists (s' - s)%Z. split; [reflexivity|]. split.
  - rewrite F, minus_IZR. replace ((INR k + IZR s' * INR n) / (INR n * (1 / INR os)) / 4 - f - (IZR s' - IZR s) * (INR os / 4))
      with (- (INR os / (4 * INR n)) * (4 * f * INR n / INR os - (INR k + IZR s * INR n))) by (field; lra).
    rewrite Rabs_mult, Rabs_Ropp, Rabs_right. 2: { apply Rle_ge. left. apply Rdiv_lt_0_compat; lra. }
    replace (INR os / (8 * INR n)) with (INR os / (4 * INR n) * (1 / 2)) by (field; lra).
    apply Rmult_le_compat_l; [left; apply Rdiv_lt_0_compat; lra|exact Ek].
  - assert (B : - INR n <= 2 * IZR (freq_bin n k) <= INR n).
    { rewrite (INR_IZR_INZ n), <- opp_IZR, <- mult_IZR. split; apply IZR_le; unfold freq_bin; destruct (Nat.ltb_spec k ((n + 1) / 2)); lia. }
    replace (IZR (freq_bin n k) / (INR n * (1 / INR os)) / 4) with (2 * IZR (freq_bin n k) * (INR os / (8 * INR n))) by (field; lra).
    replace (INR os / 8) with (INR n * (INR os / (8 * INR n))) by (field; lra).
    assert (0 < INR os / (8 * INR n)) by (apply Rdiv_lt_0_compat; lra). split; [|apply Rmult_le_compat_r; lra].
    rewrite <- Ropp_mult_distr_l_reverse. apply Rmult_le_compat_r; lra.
Qed.
Lemma row_near_inside m n os a f row : (2 <= m)%nat -> next_pow2 m n -> (1 <= os)%nat -> a <> C0 -> qpsk_offset a f os row -> (n <= length row)%nat ->
  - (INR os / 8) <= f < INR os / 8 - INR os / (8 * INR n) ->
  exists v, offset_of_row n os row = Ok v /\ Rabs (v - f) <= INR os / (8 * INR n).
Proof.
  intros Hm Hp Hos Ha HQ HL Hf. destruct (pow2_double m n Hp Hm) as (p & -> & Hpp).
  assert (posn : 0 < INR p) by (apply lt_0_INR; lia). assert (poso : 0 < INR os) by (apply lt_0_INR; lia).
  assert (E2 : INR (2 * p) = 2 * INR p) by (rewrite mult_INR; cbn; ring).
  destruct (row_full (2 * p) os a f row ltac:(lia) Hos Ha HQ HL) as (k & s & E & K & Ek). rewrite E. clear E. eexists. split; [reflexivity|].
  destruct (freq_bin_cases (2 * p) k K) as (s' & F). pose proof (freq_bin_range p k K) as R. rewrite E2 in *.
  set (x := 4 * f * (2 * INR p) / INR os) in *.
  assert (X : - INR p <= x < INR p - 1 / 2).
  { unfold x. replace (- INR p) with (8 * INR p / INR os * - (INR os / 8)) by (field; lra).
    replace (INR p - 1 / 2) with (8 * INR p / INR os * (INR os / 8 - INR os / (8 * (2 * INR p)))) by (field; lra).
    replace (4 * f * (2 * INR p) / INR os) with (8 * INR p / INR os * f) by (field; lra).
    assert (0 < 8 * INR p / INR os) by (apply Rdiv_lt_0_compat; lra). split; [apply Rmult_le_compat_l; lra|apply Rmult_lt_compat_l; lra]. }
  assert (B : - INR p <= IZR (freq_bin (2 * p) k) <= INR p - 1).
  { rewrite (INR_IZR_INZ p), <- opp_IZR, <- minus_IZR. split; apply IZR_le; lia. }
  set (v := IZR (freq_bin (2 * p) k)) in *. apply Rabs_le_both in Ek.
  assert (S : (s' - s = 0)%Z).
  { assert (L : -1 < IZR (s' - s) < 1).
    { rewrite minus_IZR. split; apply (Rmult_lt_reg_r (2 * INR p)); try lra. }
    destruct L as (L1 & L2). apply lt_IZR in L1. apply lt_IZR in L2. lia. }
  assert (s' = s) by lia. subst s'.
  replace (v / (2 * INR p * (1 / INR os)) / 4 - f) with (INR os / (8 * INR p) * (v - x)) by (unfold x; field; lra).
  rewrite Rabs_mult, Rabs_right. 2: { apply Rle_ge. left. apply Rdiv_lt_0_compat; lra. }
  replace (INR os / (8 * (2 * INR p))) with (INR os / (8 * INR p) * (1 / 2)) by (field; lra).
  apply Rmult_le_compat_l; [left; apply Rdiv_lt_0_compat; lra|]. apply Rabs_le. lra.
Qed.

(** ** whole signals *)
Lemma find_each os m n sig : next_pow2 m n -> (1 <= m)%nat -> (1 <= os)%nat ->
  find_freq_offset sig os false m = mapM (offset_of_row n os) sig /\
  forall fo, mapM (offset_of_row n os) sig = Ok fo -> find_freq_offset sig os true m = Ok (repeat (Rmean fo) (length sig)).
Proof.
  intros Hp Hm Hos. unfold find_freq_offset. rewrite (proj2 (fft_length_next m n) (conj Hm Hp)). cbn [bind].
  destruct (Nat.eqb_spec os 0) as [->|_]; [lia|]. split.
  - destruct (mapM _ sig); reflexivity.
  - intros fo E. rewrite E. cbn [bind]. apply (f_equal Ok). rewrite <- (mapM_length _ _ _ E). clear E. generalize (Rmean fo) as v. intros v.
    induction fo as [|x fo IH]; [reflexivity|]. cbn. now rewrite IH.
Qed.
Lemma find_exact os m n sig fs : next_pow2 m n -> (2 <= m)%nat -> (1 <= os)%nat ->
  Forall2 (fun row f => (2 <= length row)%nat /\ exists a (b : Z), a <> C0 /\ qpsk_offset a f os row /\
     f = IZR b * INR os / (4 * INR n) /\ (- Z.of_nat n <= 2 * b < Z.of_nat n)%Z) sig fs ->
  find_freq_offset sig os false m = Ok fs /\ find_freq_offset sig os true m = Ok (repeat (Rmean fs) (length sig)).
Proof.
  intros Hp Hm Hos H. assert (E : mapM (offset_of_row n os) sig = Ok fs).
  { induction H as [|row f sig fs (HL & a & b & Ha & HQ & Hf & Hb) H IH]; [reflexivity|]. cbn [mapM].
    rewrite (row_exact m n os a f row b Hp Hm Hos Ha HQ HL Hf Hb). cbn [bind]. rewrite IH. reflexivity. }
  destruct (find_each os m n sig Hp ltac:(lia) Hos) as (F1 & F2). rewrite F1. split; [exact E|exact (F2 fs E)].
Qed.
Lemma find_near os m n sig fs : next_pow2 m n -> (2 <= m)%nat -> (1 <= os)%nat ->
  Forall2 (fun row f => (n <= length row)%nat /\ exists a, a <> C0 /\ qpsk_offset a f os row) sig fs ->
  exists vs, find_freq_offset sig os false m = Ok vs /\ find_freq_offset sig os true m = Ok (repeat (Rmean vs) (length sig)) /\
    Forall2 (fun v f => - (INR os / 8) <= v <= INR os / 8 /\
      (exists s : Z, Rabs (v - f - IZR s * (INR os / 4)) <= INR os / (8 * INR n)) /\
      (- (INR os / 8) <= f < INR os / 8 - INR os / (8 * INR n) -> Rabs (v - f) <= INR os / (8 * INR n))) vs fs.
Proof.
  intros Hp Hm Hos H. destruct (find_each os m n sig Hp ltac:(lia) Hos) as (F1 & F2).
  assert (E : exists vs, mapM (offset_of_row n os) sig = Ok vs /\ Forall2 (fun v f => - (INR os / 8) <= v <= INR os / 8 /\
      (exists s : Z, Rabs (v - f - IZR s * (INR os / 4)) <= INR os / (8 * INR n)) /\
      (- (INR os / 8) <= f < INR os / 8 - INR os / (8 * INR n) -> Rabs (v - f) <= INR os / (8 * INR n))) vs fs).
  { clear F1 F2. induction H as [|row f sig fs (HL & a & Ha & HQ) H IH]; [exists []; split; [reflexivity|constructor]|].
    destruct IH as (vs & E & F). destruct (row_near m n os a f row ltac:(lia) Hp Hos Ha HQ HL) as (v & s & Ev & B & R). exists (v :: vs). split.
    - cbn [mapM]. rewrite Ev. cbn [bind]. rewrite E. reflexivity.
    - constructor; [|exact F]. split; [exact R|]. split; [exists s; exact B|]. intros I.
      destruct (row_near_inside m n os a f row Hm Hp Hos Ha HQ HL I) as (v' & Ev' & B'). congruence. }
  destruct E as (vs & E & F). exists vs. rewrite F1. split; [exact E|]. split; [exact (F2 vs E)|exact F].
Qed.
(** removing the offset that was found leaves a QPSK signal at rest *)
Lemma comp_found os sig fs : (1 <= os)%nat -> Forall2 (fun row f => exists a, qpsk_offset a f os row) sig fs ->
  exists out, comp_freq_offset sig fs (INR os) = Ok out /\ length out = length sig /\
  forall k row row' f a, nth_error sig k = Some row -> nth_error out k = Some row' -> nth_error fs k = Some f -> qpsk_offset a f os row ->
    length row' = length row /\ exists a', Cabs a' = Cabs a /\ qpsk_offset a' 0 os row'.
Proof.
  intros Hos H. assert (poso : 0 < INR os) by (apply lt_0_INR; lia).
  destruct (PhaseQ.comp_freq_rot sig fs (INR os)) as (out & E & L & R); [assert (length sig = length fs) by (clear -H; induction H; cbn; congruence); lia|].
  exists out. split; [exact E|]. split; [exact L|]. intros k row row' f a Hr Hr' Hf Q.
  destruct (R k row Hr) as (row'' & Hr'' & Ll & Rn). assert (row'' = row') by congruence. subst row''. split; [exact Ll|].
  exists (a * Cexpi (- (2 * PI * f / INR os)))%C. split; [rewrite Cabs_mul, Cabs_expi; ring|].
  intros n z Hz. destruct (nth_error_lt_Some row n) as (w & Hw); [apply nth_error_Some_lt in Hz; lia|].
  destruct (Q n w Hw) as (q & Eq). exists q. rewrite (Rn n w Hw) in Hz. injection Hz as <-. rewrite Eq, (nth_error_nth fs k 0 Hf).
  replace (a * Cexpi (INR q * (PI / 2)) * Cexpi (2 * PI * f * INR n / INR os) * Cexpi (- (2 * PI * INR (n + 1) * f / INR os)))%C
    with (a * Cexpi (INR q * (PI / 2)) * (Cexpi (2 * PI * f * INR n / INR os) * Cexpi (- (2 * PI * INR (n + 1) * f / INR os))))%C by ring.
  rewrite <- Cexpi_add. replace (2 * PI * f * INR n / INR os + - (2 * PI * INR (n + 1) * f / INR os)) with (- (2 * PI * f / INR os)) by (rewrite plus_INR; cbn [INR]; field; lra).
  replace (2 * PI * 0 * INR n / INR os) with 0 by (field; lra). rewrite Cexpi_0. ring.
Qed.
(** an offset of a quarter of the sampling rate is not seen *)
Lemma quarter_alias0 os row a : (1 <= os)%nat -> qpsk_offset a (INR os / 4) os row -> qpsk_offset a 0 os row.
Proof.
  intros Hos Q i z Hz. assert (poso : 0 < INR os) by (apply lt_0_INR; lia). destruct (Q i z Hz) as (k & ->). exists (k + i)%nat.
  replace (a * Cexpi (INR k * (PI / 2)) * Cexpi (2 * PI * (INR os / 4) * INR i / INR os))%C
    with (a * (Cexpi (INR k * (PI / 2)) * Cexpi (2 * PI * (INR os / 4) * INR i / INR os)))%C by ring.
  replace (2 * PI * 0 * INR i / INR os) with 0 by (field; lra). rewrite Cexpi_0, <- Cexpi_add, plus_INR.
  replace (INR k * (PI / 2) + 2 * PI * (INR os / 4) * INR i / INR os) with ((INR k + INR i) * (PI / 2)) by (field; lra). ring.
Qed.
