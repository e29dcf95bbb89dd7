(** The complementary error function, as the Riemann integral of the Gaussian, and its bounds. *)
From Coq Require Import Reals Lra Lia Psatz.
Local Open Scope R_scope.

Definition gaussian (t : R) : R := exp (- (t * t)).
Lemma gaussian_cont t : continuity_pt gaussian t.
Proof. unfold gaussian. reg. Qed.
Definition gaussian_int (x : R) (H : 0 <= x) : R :=
  RiemannInt (continuity_implies_RiemannInt H (fun t _ => gaussian_cont t)).

(** scipy.special.erfc(x) = 1 - 2/sqrt(pi) int_0^x exp(-t^2) dt *)
Definition erf_pos (x : R) (H : 0 <= x) : R := 2 / sqrt PI * gaussian_int x H.
Definition erf (x : R) : R :=
  match Rle_dec 0 x with
  | left H => erf_pos x H
  | right H => - erf_pos (- x) (Rlt_le _ _ (Ropp_0_gt_lt_contravar _ (Rnot_le_lt _ _ H)))
  end.
Definition erfc (x : R) : R := 1 - erf x.

(** the primitive on [0,X] *)
Definition prim (X : R) (H : 0 <= X) : R -> R := primitive H (FTC_P1 H (fun t _ => gaussian_cont t)).
Lemma prim_deriv X H x : 0 <= x <= X -> derivable_pt_lim (prim X H) x (gaussian x).
Proof. intros Hx. apply RiemannInt_P28. exact Hx. Qed.
Lemma prim_val X H x (H0 : 0 <= x) : x <= X -> prim X H x = gaussian_int x H0.
Proof.
  intros Hx. unfold prim, primitive. destruct (Rle_dec 0 x) as [h|h]; [|contradiction].
  destruct (Rle_dec x X) as [h'|h']; [|contradiction]. unfold gaussian_int. apply RiemannInt_P5.
Qed.
Lemma gaussian_pos t : 0 < gaussian t.
Proof. apply exp_pos. Qed.

(** comparison of two functions by their derivatives *)
Lemma deriv_le (f g f' g' : R -> R) a b : a <= b ->
  (forall c, a <= c <= b -> derivable_pt_lim f c (f' c)) ->
  (forall c, a <= c <= b -> derivable_pt_lim g c (g' c)) ->
  (forall c, a <= c <= b -> f' c <= g' c) -> f b - f a <= g b - g a.
Proof.
  intros [Hab|<-] Hf Hg H; [|lra].
  destruct (MVT_cor2 (fun x => g x - f x) (fun x => g' x - f' x) a b Hab) as [c [E Hc]].
  { intros c Hc. apply (derivable_pt_lim_minus g f); [apply Hg|apply Hf]; exact Hc. }
  specialize (H c ltac:(lra)). nra.
Qed.

Lemma gaussian_int_0 H : gaussian_int 0 H = 0.
Proof. unfold gaussian_int. apply RiemannInt_P9. Qed.
Lemma gaussian_int_lt x y Hx Hy : x < y -> gaussian_int x Hx < gaussian_int y Hy.
Proof.
  intros Hxy. rewrite <- (prim_val y Hy x Hx) by lra. rewrite <- (prim_val y Hy y Hy) by lra.
  destruct (MVT_cor2 (prim y Hy) gaussian x y Hxy) as [c [E Hc]].
  { intros c Hc. apply prim_deriv. lra. }
  pose proof (gaussian_pos c). nra.
Qed.

(** ** Wallis *)
(** an antiderivative of cos^(2n), and one of cos^(2n+1) *)
Fixpoint evenA (n : nat) (t : R) : R :=
  match n with
  | O => t
  | S n => (cos t ^ (2 * n + 1) * sin t + (2 * INR n + 1) * evenA n t) / (2 * INR n + 2)
  end.
Fixpoint oddA (n : nat) (t : R) : R :=
  match n with
  | O => sin t
  | S n => (cos t ^ (2 * n + 2) * sin t + (2 * INR n + 2) * oddA n t) / (2 * INR n + 3)
  end.

Lemma INR_pos n : 0 <= INR n. Proof. apply pos_INR. Qed.
Lemma dlim_eq f x a b : a = b -> derivable_pt_lim f x a -> derivable_pt_lim f x b.
Proof. intros ->; auto. Qed.
Lemma sin2c t : sin t * sin t = 1 - cos t * cos t.
Proof. pose proof (sin2_cos2 t). unfold Rsqr in *. lra. Qed.
Lemma pow_cs_deriv m t : derivable_pt_lim (fun t => cos t ^ (m + 1) * sin t) t
  ((INR m + 2) * cos t ^ (m + 2) - (INR m + 1) * cos t ^ m).
Proof.
  eapply dlim_eq.
  2:{ apply (derivable_pt_lim_mult (fun t => cos t ^ (m + 1)) sin).
      - apply (derivable_pt_lim_comp cos (fun x => x ^ (m + 1))).
        + apply derivable_pt_lim_cos.
        + apply derivable_pt_lim_pow.
      - apply derivable_pt_lim_sin. }
  cbn beta. replace (pred (m + 1)) with m by lia.
  rewrite plus_INR. replace (m + 2)%nat with (S (S m)) by lia. replace (m + 1)%nat with (S m) by lia. cbn [pow INR].
  transitivity (cos t ^ m * (cos t * cos t) - (INR m + 1) * cos t ^ m * (sin t * sin t)); [ring|].
  rewrite sin2c. ring.
Qed.

Lemma evenA_deriv n t : derivable_pt_lim (evenA n) t (cos t ^ (2 * n)).
Proof.
  revert t. induction n as [|n IH]; intros t.
  - cbn. apply derivable_pt_lim_id.
  - cbn [evenA]. pose proof (INR_pos n).
    eapply dlim_eq.
    2:{ apply (derivable_pt_lim_mult (fun t => cos t ^ (2 * n + 1) * sin t + (2 * INR n + 1) * evenA n t) (fun _ => / (2 * INR n + 2))).
        - apply (derivable_pt_lim_plus (fun t => cos t ^ (2 * n + 1) * sin t) (fun t => (2 * INR n + 1) * evenA n t)).
          + apply pow_cs_deriv.
          + apply (derivable_pt_lim_scal (evenA n)). apply IH.
        - apply derivable_pt_lim_const. }
    cbn beta. rewrite mult_INR. replace (2 * S n)%nat with (2 * n + 2)%nat by lia. cbn [INR]. field. lra.
Qed.
Lemma oddA_deriv n t : derivable_pt_lim (oddA n) t (cos t ^ (2 * n + 1)).
Proof.
  revert t. induction n as [|n IH]; intros t.
  - cbn. rewrite Rmult_1_r. apply derivable_pt_lim_sin.
  - cbn [oddA]. pose proof (INR_pos n).
    eapply dlim_eq.
    2:{ apply (derivable_pt_lim_mult (fun t => cos t ^ (2 * n + 2) * sin t + (2 * INR n + 2) * oddA n t) (fun _ => / (2 * INR n + 3))).
        - apply (derivable_pt_lim_plus (fun t => cos t ^ (2 * n + 2) * sin t) (fun t => (2 * INR n + 2) * oddA n t)).
          + replace (2 * n + 2)%nat with ((2 * n + 1) + 1)%nat by lia. apply pow_cs_deriv.
          + apply (derivable_pt_lim_scal (oddA n)). apply IH.
        - apply derivable_pt_lim_const. }
    cbn beta. rewrite plus_INR, mult_INR. replace (2 * S n + 1)%nat with (2 * n + 1 + 2)%nat by lia. cbn [INR]. field. lra.
Qed.

Definition wev (n : nat) : R := evenA n (PI / 2).
Definition wod (n : nat) : R := oddA n (PI / 2).
Lemma wev_0 : wev 0 = PI / 2. Proof. reflexivity. Qed.
Lemma wod_0 : wod 0 = 1. Proof. unfold wod; cbn. apply sin_PI2. Qed.
Lemma wev_S n : wev (S n) = (2 * INR n + 1) / (2 * INR n + 2) * wev n.
Proof.
  unfold wev. cbn [evenA]. rewrite cos_PI2, pow_ne_zero by lia. pose proof (INR_pos n). field. lra.
Qed.
Lemma wod_S n : wod (S n) = (2 * INR n + 2) / (2 * INR n + 3) * wod n.
Proof.
  unfold wod. cbn [oddA]. rewrite cos_PI2, pow_ne_zero by lia. pose proof (INR_pos n). field. lra.
Qed.
Lemma wev_pos n : 0 < wev n.
Proof.
  induction n as [|n IH]; [rewrite wev_0; pose proof PI_RGT_0; lra|].
  rewrite wev_S. pose proof (INR_pos n). apply Rmult_lt_0_compat; [|exact IH]. apply Rdiv_lt_0_compat; lra.
Qed.
Lemma w_prod n : wev n * wod n = PI / (2 * (2 * INR n + 1)).
Proof.
  induction n as [|n IH]; [rewrite wev_0, wod_0; cbn; field|].
  rewrite wev_S, wod_S. pose proof (INR_pos n).
  transitivity ((2 * INR n + 1) / (2 * INR n + 3) * (wev n * wod n)); [field; lra|].
  rewrite IH, S_INR. field. lra.
Qed.
Lemma even_at_0 n : evenA n 0 = 0.
Proof. induction n as [|n IH]; [reflexivity|]. cbn [evenA]. rewrite IH, sin_0. pose proof (INR_pos n). field. lra. Qed.
Lemma odd_at_0 n : oddA n 0 = 0.
Proof. induction n as [|n IH]; [apply sin_0|]. cbn [oddA]. rewrite IH, sin_0. pose proof (INR_pos n). field. lra. Qed.
Lemma wev_le_wod n : wev (S n) <= wod n.
Proof.
  pose proof PI_RGT_0.
  pose proof (deriv_le (evenA (S n)) (oddA n) (fun t => cos t ^ (2 * S n)) (fun t => cos t ^ (2 * n + 1)) 0 (PI / 2)
    ltac:(lra) (fun c _ => evenA_deriv (S n) c) (fun c _ => oddA_deriv n c)) as L.
  rewrite even_at_0, odd_at_0 in L. unfold wev, wod.
  enough (evenA (S n) (PI / 2) - 0 <= oddA n (PI / 2) - 0) by lra. apply L.
  intros c Hc. pose proof (COS_bound c) as [_ C1]. assert (C0 : 0 <= cos c) by (apply cos_ge_0; lra).
  replace (2 * S n)%nat with (S (2 * n + 1)) by lia. cbn [pow]. pose proof (pow_le (cos c) (2 * n + 1) C0). cbn [pow] in *. nra.
Qed.
Lemma wev_bound n : wev (S n) * wev (S n) <= PI / (4 * (INR n + 1)).
Proof.
  pose proof (wev_le_wod n). pose proof (wev_pos (S n)). pose proof (INR_pos n).
  apply Rle_trans with (wev (S n) * wod n); [nra|].
  rewrite wev_S, Rmult_assoc, w_prod. right. field. lra.
Qed.

(** ** The Gaussian integral stays below sqrt(pi)/2 *)
Lemma cos_atan2 x : cos (atan x) * cos (atan x) = / (1 + x * x).
Proof.
  assert (H : sin (atan x) = x * cos (atan x)).
  { rewrite <- (tan_atan x) at 2. unfold tan. field.
    pose proof (atan_bound x). assert (0 < cos (atan x)) by (apply cos_gt_0; lra). lra. }
  pose proof (sin2_cos2 (atan x)) as E. unfold Rsqr in E. rewrite H in E.
  assert (0 < 1 + x * x) by nra. apply (Rmult_eq_reg_l (1 + x * x)); [|lra]. rewrite Rinv_r by lra. nra.
Qed.
Lemma exp_pow x n : exp x ^ n = exp (INR n * x).
Proof.
  induction n as [|n IH]; [cbn; rewrite Rmult_0_l, exp_0; reflexivity|].
  cbn [pow]. rewrite IH, <- exp_plus, S_INR. f_equal. ring.
Qed.
Lemma exp_ge_1x x : 1 + x <= exp x.
Proof. destruct (Req_dec x 0) as [->|H]; [rewrite exp_0; lra|]. left. apply exp_ineq1; exact H. Qed.
Lemma gaussian_le n x : gaussian x <= cos (atan (x / sqrt (INR (S n)))) ^ (2 * n) * / (1 + (x / sqrt (INR (S n))) * (x / sqrt (INR (S n)))).
Proof.
  assert (Hn : 0 < INR (S n)) by (apply lt_0_INR; lia).
  set (y := x / sqrt (INR (S n))).
  rewrite pow_mult. cbn [pow]. rewrite Rmult_1_r, cos_atan2.
  apply Rle_trans with ((/ (1 + y * y)) ^ S n); [|cbn [pow]; lra].
  assert (Hy : y * y = x * x / INR (S n)).
  { unfold y. unfold Rdiv. rewrite <- (sqrt_sqrt (INR (S n))) at 3 by lra. field. apply Rgt_not_eq, sqrt_lt_R0. exact Hn. }
  assert (P : 0 < 1 + y * y) by nra.
  assert (E : (1 + y * y) ^ S n <= exp (x * x)).
  { replace (exp (x * x)) with (exp (y * y) ^ S n).
    - apply pow_incr. split; [lra|apply exp_ge_1x].
    - rewrite exp_pow, Hy. f_equal. field. lra. }
  unfold gaussian. rewrite exp_Ropp, pow_inv.
  apply Rinv_le_contravar; [apply pow_lt; exact P|exact E].
Qed.
Lemma evenA_mono n t : 0 <= t <= PI / 2 -> evenA n t <= wev n.
Proof.
  intros Ht. unfold wev.
  pose proof (deriv_le (fun _ => 0) (evenA n) (fun _ => 0) (fun t => cos t ^ (2 * n)) t (PI / 2) ltac:(lra)
    (fun c _ => derivable_pt_lim_const 0 c) (fun c _ => evenA_deriv n c)) as L.
  enough (0 - 0 <= evenA n (PI / 2) - evenA n t) by lra. apply L.
  intros c Hc. rewrite pow_mult. apply pow_le. cbn. pose proof (cos c). nra.
Qed.
Lemma gaussian_int_wallis n x H : gaussian_int x H <= sqrt (INR (S n)) * wev n.
Proof.
  assert (Hn : 0 < INR (S n)) by (apply lt_0_INR; lia).
  assert (Hq : 0 < sqrt (INR (S n))) by (apply sqrt_lt_R0; exact Hn).
  set (q := sqrt (INR (S n))) in *.
  pose proof (deriv_le (prim x H) (fun u => q * evenA n (atan (u / q))) gaussian
    (fun u => cos (atan (u / q)) ^ (2 * n) * / (1 + (u / q) * (u / q))) 0 x H) as L.
  cbn beta in L.
  rewrite (prim_val x H x H) in L by lra. rewrite (prim_val x H 0 (Rle_refl 0)) in L by lra.
  rewrite gaussian_int_0 in L. replace (0 / q) with 0 in L by (unfold Rdiv; ring).
  rewrite atan_0, even_at_0 in L.
  apply Rle_trans with (q * evenA n (atan (x / q))).
  - enough (gaussian_int x H - 0 <= q * evenA n (atan (x / q)) - q * 0) by lra. apply L.
    + intros c Hc. apply prim_deriv. exact Hc.
    + intros c Hc. eapply dlim_eq.
      2:{ apply (derivable_pt_lim_scal (fun u => evenA n (atan (u / q))) q).
          apply (derivable_pt_lim_comp (fun u => atan (u / q)) (evenA n)).
          - apply (derivable_pt_lim_comp (fun u => u / q) atan).
            + apply (derivable_pt_lim_mult (fun u => u) (fun _ => / q)); [apply derivable_pt_lim_id|apply derivable_pt_lim_const].
            + apply derivable_pt_lim_atan.
          - apply evenA_deriv. }
      cbn beta. replace ((c / q) ^ 2) with (c / q * (c / q)) by ring. generalize (/ (1 + c / q * (c / q))) (cos (atan (c / q)) ^ (2 * n)). intros D P. field; lra.
    + intros c Hc. apply gaussian_le.
  - apply Rmult_le_compat_l; [lra|]. apply evenA_mono. pose proof (atan_bound (x / q)).
    split; [|lra]. destruct (Req_dec x 0) as [->|N].
    + unfold Rdiv. rewrite Rmult_0_l, atan_0. lra.
    + rewrite <- atan_0. left. apply atan_increasing. apply Rdiv_lt_0_compat; lra.
Qed.
Lemma gaussian_int_sq x H : gaussian_int x H * gaussian_int x H <= PI / 4.
Proof.
  pose proof PI_RGT_0 as HP.
  assert (G0 : 0 <= gaussian_int x H).
  { destruct (Req_dec x 0) as [->|N]; [rewrite gaussian_int_0; lra|].
    rewrite <- (gaussian_int_0 (Rle_refl 0)). left. apply gaussian_int_lt. lra. }
  set (g := gaussian_int x H) in *.
  assert (B : forall n, g * g <= PI / 4 + PI / 4 * / (INR n + 1)).
  { intros n. pose proof (gaussian_int_wallis (S n) x H) as W. fold g in W.
    pose proof (wev_bound n) as V. pose proof (wev_pos (S n)). pose proof (INR_pos n).
    assert (Q : sqrt (INR (S (S n))) * sqrt (INR (S (S n))) = INR n + 2) by (rewrite sqrt_sqrt by apply pos_INR; rewrite !S_INR; ring).
    pose proof (sqrt_pos (INR (S (S n)))).
    apply Rle_trans with ((INR n + 2) * (wev (S n) * wev (S n))).
    - rewrite <- Q. set (s := sqrt _) in *. set (w := wev _) in *.
      replace (s * s * (w * w)) with ((s * w) * (s * w)) by ring. apply Rmult_le_compat; lra.
    - apply Rle_trans with ((INR n + 2) * (PI / (4 * (INR n + 1)))); [apply Rmult_le_compat_l; lra|]. right. field. lra. }
  destruct (Rle_dec (g * g) (PI / 4)) as [|N]; [assumption|exfalso]. apply Rnot_le_lt in N.
  set (d := g * g - PI / 4) in *. assert (Hd : 0 < d) by (unfold d; lra).
  destruct (archimed (PI / 4 / d)) as [A _].
  assert (Hz : (0 <= up (PI / 4 / d))%Z).
  { apply le_IZR. apply Rle_trans with (PI / 4 / d); [|lra]. left. apply Rdiv_lt_0_compat; lra. }
  destruct (IZN _ Hz) as [n En]. rewrite En, <- INR_IZR_INZ in A.
  specialize (B n). pose proof (INR_pos n).
  assert (PI / 4 * / (INR n + 1) < d); [|unfold d in *; lra].
  apply (Rmult_lt_reg_r (INR n + 1)); [lra|]. rewrite Rmult_assoc, Rinv_l by lra.
  apply (Rmult_gt_compat_r d) in A; [|lra]. unfold Rdiv in A. rewrite (Rmult_assoc (PI * / 4)), Rinv_l in A by lra. lra.
Qed.
Lemma gaussian_int_bound x H : gaussian_int x H < sqrt PI / 2.
Proof.
  pose proof PI_RGT_0 as HP.
  assert (Hx1 : 0 <= x + 1) by lra.
  apply Rlt_le_trans with (gaussian_int (x + 1) Hx1); [apply gaussian_int_lt; lra|].
  pose proof (gaussian_int_sq (x + 1) Hx1) as S.
  assert (0 < sqrt PI) by (apply sqrt_lt_R0; lra).
  pose proof (sqrt_sqrt PI (Rlt_le _ _ HP)) as Q.
  assert (G0 : 0 < gaussian_int (x + 1) Hx1).
  { rewrite <- (gaussian_int_0 (Rle_refl 0)). apply gaussian_int_lt. lra. }
  set (g := gaussian_int (x + 1) Hx1) in *. nra.
Qed.

(** ** erfc *)
Lemma erf_pos_pi x H (H' : 0 <= x) : erf_pos x H = erf_pos x H'.
Proof. unfold erf_pos, gaussian_int. f_equal. apply RiemannInt_P5. Qed.
Lemma erf_nn x (H : 0 <= x) : erf x = erf_pos x H.
Proof. unfold erf. destruct (Rle_dec 0 x) as [h|h]; [apply erf_pos_pi|contradiction]. Qed.
Lemma k_pos : 0 < 2 / sqrt PI.
Proof. apply Rdiv_lt_0_compat; [lra|]. apply sqrt_lt_R0, PI_RGT_0. Qed.
Lemma erfc_0 : erfc 0 = 1.
Proof. unfold erfc. rewrite (erf_nn 0 (Rle_refl 0)). unfold erf_pos. rewrite gaussian_int_0. ring. Qed.
Lemma erfc_lt x y : 0 <= x -> x < y -> erfc y < erfc x.
Proof.
  intros Hx Hxy. assert (Hy : 0 <= y) by lra. unfold erfc. rewrite (erf_nn x Hx), (erf_nn y Hy). unfold erf_pos.
  pose proof (gaussian_int_lt x y Hx Hy Hxy). pose proof k_pos. nra.
Qed.
Lemma erfc_pos x : 0 <= x -> 0 < erfc x.
Proof.
  intros H. unfold erfc. rewrite (erf_nn x H). unfold erf_pos. pose proof (gaussian_int_bound x H).
  assert (0 < sqrt PI) by apply (sqrt_lt_R0 _ PI_RGT_0). pose proof k_pos.
  assert (2 / sqrt PI * gaussian_int x H < 2 / sqrt PI * (sqrt PI / 2)) by (apply Rmult_lt_compat_l; assumption).
  replace (2 / sqrt PI * (sqrt PI / 2)) with 1 in * by (field; lra). lra.
Qed.
Lemma erfc_le_1 x : 0 <= x -> erfc x <= 1.
Proof.
  intros [H|<-]; [|rewrite erfc_0; lra]. rewrite <- erfc_0. left. apply erfc_lt; lra.
Qed.
