(** Pulse shapes *)
From Coq Require Import Reals ZArith Lia Lra Psatz.
From Verif Require Import Common.Py Model.Pulses Spec.PulseS.
Local Open Scope R_scope.

Lemma divw_ok a b : b <> 0 -> divw a b = Some (a / b).
Proof. intros H. unfold divw. destruct (Req_EM_T b 0); [contradiction|reflexivity]. Qed.

(** a function of |x - x0| that falls *)
Lemma bell_of g A x0 (f : R -> option R) : (forall x, f x = Some (g (Rabs (x - x0)))) -> g 0 = A -> (forall r, 0 <= r -> 0 < g r) ->
  (forall r s, 0 <= r -> r < s -> g s < g r) -> bell f A x0.
Proof.
  intros Hf H0 Hp Hd. split; [|split].
  - rewrite Hf, Rminus_diag_eq, Rabs_R0, H0 by reflexivity. reflexivity.
  - intros d. rewrite !Hf. do 2 apply f_equal. replace (x0 + d - x0) with d by ring. replace (x0 - d - x0) with (- d) by ring.
    now rewrite Rabs_Ropp.
  - intros x y H. pose proof (Rabs_pos (x - x0)). pose proof (Rabs_pos (y - x0)). exists (g (Rabs (x - x0))), (g (Rabs (y - x0))). rewrite !Hf. repeat split; auto.
Qed.

Lemma sq_abs u : u ^ 2 = Rabs u ^ 2.
Proof. rewrite <- !Rsqr_pow2. apply Rsqr_abs. Qed.
Lemma abs_div u w : w <> 0 -> Rabs (u / w) = Rabs u / Rabs w.
Proof. intros H. unfold Rdiv. rewrite Rabs_mult, Rabs_inv. reflexivity. Qed.

Lemma gauss_bell A x0 w : 0 < A -> w <> 0 -> bell (fun x => gauss x A x0 w) A x0 /\
  forall d, gauss (x0 + d) A x0 w = Some (A * exp (- (d / w) ^ 2 / 2)).
Proof.
  intros HA Hw. pose proof (Rabs_pos_lt w Hw) as Pw. split.
  - apply (bell_of (fun r => A * exp (- (r / Rabs w) ^ 2 / 2))).
    + intros x. unfold gauss. rewrite divw_ok by exact Hw. cbn [omap]. rewrite sq_abs, abs_div by exact Hw. reflexivity.
    + replace (- (0 / Rabs w) ^ 2 / 2) with 0 by (field; lra). rewrite exp_0. ring.
    + intros r _. apply Rmult_lt_0_compat; [exact HA|apply exp_pos].
    + intros r s Hr Hs. apply Rmult_lt_compat_l; [exact HA|]. apply exp_increasing.
      assert (0 <= r / Rabs w) by (apply Rmult_le_pos; [exact Hr|left; now apply Rinv_0_lt_compat]).
      assert (r / Rabs w < s / Rabs w) by (apply Rmult_lt_compat_r; [now apply Rinv_0_lt_compat|exact Hs]). nra.
  - intros d. unfold gauss. rewrite divw_ok by exact Hw. cbn [omap]. replace (x0 + d - x0) with d by ring. reflexivity.
Qed.

Lemma cosh_abs u : cosh u = cosh (Rabs u).
Proof. unfold Rabs. destruct (Rcase_abs u); [|reflexivity]. unfold cosh. rewrite Ropp_involutive. field. Qed.
Lemma cosh_pos' u : 0 < cosh u.
Proof. unfold cosh. pose proof (exp_pos u). pose proof (exp_pos (- u)). lra. Qed.
Lemma cosh_increasing a b : 0 <= a -> a < b -> cosh a < cosh b.
Proof.
  intros Ha Hb. unfold cosh.
  assert (E : exp (- a) - exp (- b) = exp (- a - b) * (exp b - exp a)).
  { rewrite Rmult_minus_distr_l, <- !exp_plus. replace (- a - b + b) with (- a) by ring. replace (- a - b + a) with (- b) by ring. reflexivity. }
  assert (H : exp a < exp b) by now apply exp_increasing.
  assert (K : exp (- a - b) < 1) by (rewrite <- exp_0; apply exp_increasing; lra).
  nra.
Qed.
Lemma sech_bell A x0 w : 0 < A -> w <> 0 -> bell (fun x => sech x A x0 w) A x0 /\
  forall d, sech (x0 + d) A x0 w = Some (2 * A / (exp (d / w) + exp (- (d / w)))).
Proof.
  intros HA Hw. pose proof (Rabs_pos_lt w Hw) as Pw. split.
  - apply (bell_of (fun r => A / cosh (r / Rabs w))).
    + intros x. unfold sech. rewrite divw_ok by exact Hw. cbn [omap]. rewrite cosh_abs, abs_div by exact Hw. reflexivity.
    + replace (0 / Rabs w) with 0 by (field; lra). rewrite cosh_0. field.
    + intros r _. apply Rmult_lt_0_compat; [exact HA|apply Rinv_0_lt_compat, cosh_pos'].
    + intros r s Hr Hs. apply Rmult_lt_compat_l; [exact HA|].
      assert (0 <= r / Rabs w) by (apply Rmult_le_pos; [exact Hr|left; now apply Rinv_0_lt_compat]).
      assert (r / Rabs w < s / Rabs w) by (apply Rmult_lt_compat_r; [now apply Rinv_0_lt_compat|exact Hs]).
      apply Rinv_lt_contravar; [apply Rmult_lt_0_compat; apply cosh_pos'|now apply cosh_increasing].
  - intros d. unfold sech. rewrite divw_ok by exact Hw. cbn [omap]. replace (x0 + d - x0) with d by ring. apply f_equal.
    unfold cosh. pose proof (exp_pos (d / w)). pose proof (exp_pos (- (d / w))). generalize dependent (exp (d / w)). generalize dependent (exp (- (d / w))). intros. field. lra.
Qed.

Lemma tanh_form u : tanh u = 1 - 2 / (exp (2 * u) + 1).
Proof.
  unfold tanh, sinh, cosh. pose proof (exp_pos u) as P. rewrite exp_Ropp. replace (2 * u) with (u + u) by ring. rewrite exp_plus.
  assert (0 < exp u * exp u) by nra. assert (0 < / exp u) by now apply Rinv_0_lt_compat. field. repeat split; try lra.
Qed.
Lemma ttanh_step A x0 w : 0 < A -> 0 < w -> step_up (fun x => ttanh x A x0 w) A x0 /\ ttanh x0 A x0 w = Some 0.
Proof.
  intros HA Hw. assert (Hn : w <> 0) by lra. assert (F : forall x, ttanh x A x0 w = Some (A * tanh ((x - x0) / w))).
  { intros x. unfold ttanh. now rewrite divw_ok. }
  assert (T : forall u, -1 < tanh u < 1).
  { intros u. rewrite tanh_form. pose proof (exp_pos (2 * u)) as P. assert (K : 0 < / (exp (2 * u) + 1)) by (apply Rinv_0_lt_compat; lra).
    assert (E : (exp (2 * u) + 1) * / (exp (2 * u) + 1) = 1) by (field; lra). unfold Rdiv. split; nra. }
  assert (O : forall u, tanh (- u) = - tanh u).
  { intros u. unfold tanh, sinh, cosh. rewrite Ropp_involutive. pose proof (exp_pos u). pose proof (exp_pos (- u)). field. lra. }
  split; [split; [|split]|].
  - intros x. exists (A * tanh ((x - x0) / w)). split; [apply F|]. specialize (T ((x - x0) / w)). nra.
  - intros d u E. rewrite F in *. assert (u = A * tanh ((x0 + d - x0) / w)) by congruence. subst u. apply f_equal.
    replace (x0 + d - x0) with d by ring. replace ((x0 - d - x0) / w) with (- (d / w)) by (field; lra). rewrite O. ring.
  - intros x y H. exists (A * tanh ((x - x0) / w)), (A * tanh ((y - x0) / w)). repeat split; try apply F. apply Rmult_lt_compat_l; [exact HA|].
    rewrite !tanh_form. assert (E : (x - x0) / w < (y - x0) / w) by (apply Rmult_lt_compat_r; [now apply Rinv_0_lt_compat|lra]).
    assert (E2 : exp (2 * ((x - x0) / w)) < exp (2 * ((y - x0) / w))) by (apply exp_increasing; lra).
    pose proof (exp_pos (2 * ((x - x0) / w))). pose proof (exp_pos (2 * ((y - x0) / w))).
    assert (/ (exp (2 * ((y - x0) / w)) + 1) < / (exp (2 * ((x - x0) / w)) + 1)) by (apply Rinv_lt_contravar; [nra|lra]).
    unfold Rdiv. lra.
  - rewrite F. apply f_equal. replace ((x0 - x0) / w) with 0 by (field; lra). rewrite tanh_form, Rmult_0_r, exp_0. field.
Qed.

Lemma int_part_unique x z : IZR z <= x < IZR z + 1 -> Int_part x = z.
Proof.
  intros H. destruct (base_Int_part x) as [A B].
  assert (Int_part x < z + 1)%Z by (apply lt_IZR; rewrite plus_IZR; lra).
  assert (z < Int_part x + 1)%Z by (apply lt_IZR; rewrite plus_IZR; lra). lia.
Qed.
Lemma Int_part_IZR z : Int_part (IZR z) = z.
Proof. apply int_part_unique. lra. Qed.
Lemma np_pow_nat u n : np_pow u (INR (S n)) = Some (u ^ S n).
Proof.
  unfold np_pow. pose proof (pos_INR n) as P. rewrite S_INR.
  destruct (Req_EM_T u 0) as [->|Hu].
  - destruct (Req_EM_T (INR n + 1) 0); [lra|]. destruct (Rlt_dec (INR n + 1) 0); [lra|]. rewrite pow_i by lia. reflexivity.
  - rewrite <- S_INR. destruct (Rlt_dec 0 u) as [H|H]; [now rewrite Rpower_pow|].
    rewrite INR_IZR_INZ, Int_part_IZR. destruct (Req_EM_T (IZR (Z.of_nat (S n))) (IZR (Z.of_nat (S n)))) as [_|K]; [|now contradiction K].
    now rewrite <- pow_powerRZ.
Qed.
Lemma pow_lt_mono a b n : 0 <= a -> a < b -> a ^ S n < b ^ S n.
Proof.
  intros Ha Hb. induction n as [|n IH]; [cbn; lra|]. change (a ^ S (S n)) with (a * a ^ S n). change (b ^ S (S n)) with (b * b ^ S n).
  assert (0 <= a ^ S n) by now apply pow_le. apply Rmult_le_0_lt_compat; assumption.
Qed.
Lemma supergauss_left A x0 w : 0 < A -> 0 < w ->
  supergauss (x0 - w) A x0 w (1 / 2) = Some (A * exp (1 / 2)) /\ A < A * exp (1 / 2) /\
  supergauss (x0 - w) A x0 w (3 / 4) = None.
Proof.
  intros HA Hw. assert (Hn : w <> 0) by lra. split; [|split].
  - unfold supergauss. rewrite divw_ok by exact Hn. replace (2 * (1 / 2)) with (INR 1) by (cbn; field). rewrite np_pow_nat. cbn [omap].
    replace ((x0 - w - x0) / w) with (-1) by (field; exact Hn). do 3 apply f_equal. field.
  - assert (K : exp 0 < exp (1 / 2)) by (apply exp_increasing; lra). rewrite exp_0 in K. nra.
  - unfold supergauss. rewrite divw_ok by exact Hn. replace ((x0 - w - x0) / w) with (-1) by (field; exact Hn). unfold np_pow.
    destruct (Req_EM_T (-1) 0); [lra|]. destruct (Rlt_dec 0 (-1)); [lra|].
    assert (I : Int_part (2 * (3 / 4)) = 1%Z) by (apply int_part_unique; lra). rewrite I.
    destruct (Req_EM_T (2 * (3 / 4)) (IZR 1)) as [K|]; [lra|reflexivity].
Qed.
Lemma supergauss_bell A x0 w n : 0 < A -> w <> 0 -> bell (fun x => supergauss x A x0 w (INR (S n))) A x0 /\
  (forall x, supergauss x A x0 w 1 = gauss x A x0 w) /\
  supergauss (x0 + w) A x0 w (INR (S n)) = Some (A * exp (- (1 / 2))).
Proof.
  intros HA Hw. pose proof (Rabs_pos_lt w Hw) as Pw.
  assert (F : forall m x, supergauss x A x0 w (INR (S m)) = Some (A * exp (- (((x - x0) / w) ^ 2) ^ S m / 2))).
  { intros m x. unfold supergauss. rewrite divw_ok by exact Hw. replace (2 * INR (S m)) with (INR (S (2 * m + 1))).
    2:{ rewrite !S_INR, plus_INR, mult_INR. cbn [INR]. ring. }
    rewrite np_pow_nat. cbn [omap]. rewrite <- pow_mult. replace (2 * S m)%nat with (S (2 * m + 1)) by lia. reflexivity. }
  split; [|split].
  - apply (bell_of (fun r => A * exp (- ((r / Rabs w) ^ 2) ^ S n / 2))).
    + intros x. rewrite F. rewrite sq_abs, abs_div by exact Hw. reflexivity.
    + replace (0 / Rabs w) with 0 by (field; lra). rewrite !pow_i by lia. replace (- 0 / 2) with 0 by field. rewrite exp_0. ring.
    + intros r _. apply Rmult_lt_0_compat; [exact HA|apply exp_pos].
    + intros r s Hr Hs. apply Rmult_lt_compat_l; [exact HA|]. apply exp_increasing.
      assert (0 <= r / Rabs w) by (apply Rmult_le_pos; [exact Hr|left; now apply Rinv_0_lt_compat]).
      assert (r / Rabs w < s / Rabs w) by (apply Rmult_lt_compat_r; [now apply Rinv_0_lt_compat|exact Hs]).
      assert (((r / Rabs w) ^ 2) ^ S n < ((s / Rabs w) ^ 2) ^ S n) by (apply pow_lt_mono; nra). lra.
  - intros x. change 1 with (INR 1). rewrite F. unfold gauss. rewrite divw_ok by exact Hw. cbn [omap].
    do 3 apply f_equal. field. exact Hw.
  - rewrite F. replace ((x0 + w - x0) / w) with 1 by (field; exact Hw). rewrite !pow1. do 3 apply f_equal. field.
Qed.
(** half-integer orders exceed the amplitude left of x0, other orders are nan there *)

(** ** the raised cosine pulse *)
Lemma rcos_nyquist beta T k : T <> 0 -> 2 * beta * IZR k <> 1 -> 2 * beta * IZR k <> -1 ->
  rcos_time (IZR k * T) beta T = Some (if (k =? 0)%Z then 1 else 0).
Proof.
  intros HT H1 H2. unfold rcos_time. rewrite divw_ok by exact HT. replace (IZR k * T / T) with (IZR k) by (field; exact HT).
  replace (beta * (IZR k * T) / T) with (beta * IZR k) by (field; exact HT).
  rewrite divw_ok by (intros K; assert ((2 * beta * IZR k - 1) * (2 * beta * IZR k + 1) = 0) by lra; destruct (Rmult_integral _ _ H); lra).
  apply f_equal. unfold np_sinc. destruct (Z.eqb_spec k 0) as [->|Hk].
  - destruct (Req_EM_T (IZR 0) 0) as [_|K]; [|contradiction]. replace (IZR 0 * PI * beta) with 0 by ring. rewrite cos_0. field.
  - destruct (Req_EM_T (IZR k) 0) as [K|_]; [apply eq_IZR_R0 in K; contradiction|].
    assert (S : sin (PI * IZR k) = 0) by (apply sin_eq_0_1; exists k; ring). rewrite S. unfold Rdiv. ring.
Qed.
Lemma rcos_singular beta T : 0 < beta -> T <> 0 -> rcos_time (T / (2 * beta)) beta T = None.
Proof.
  intros Hb HT. unfold rcos_time. rewrite divw_ok by exact HT. unfold divw.
  destruct (Req_EM_T _ 0) as [_|K]; [reflexivity|]. contradiction K. field. split; lra.
Qed.
Lemma rcos_even t beta T : rcos_time (- t) beta T = rcos_time t beta T.
Proof.
  unfold rcos_time, divw. destruct (Req_EM_T T 0) as [E|E]; [reflexivity|].
  assert (D : 1 - 4 * (beta * - t / T) ^ 2 = 1 - 4 * (beta * t / T) ^ 2) by (field; exact E). rewrite D.
  destruct (Req_EM_T (1 - 4 * (beta * t / T) ^ 2) 0) as [Ez|Ez]; [reflexivity|].
  assert (S : np_sinc (- t / T) = np_sinc (t / T)).
  { unfold np_sinc. replace (- t / T) with (- (t / T)) by (field; exact E). generalize (t / T) as u. intros u.
    destruct (Req_EM_T (- u) 0), (Req_EM_T u 0); try lra. replace (PI * - u) with (- (PI * u)) by ring. rewrite sin_neg. pose proof PI_RGT_0. field. split; lra. }
  rewrite S. replace (- t / T * PI * beta) with (- (t / T * PI * beta)) by (field; exact E). rewrite cos_neg. reflexivity.
Qed.
