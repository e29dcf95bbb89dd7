(** Proofs about the error-rate formulas and probabilistic shaping. *)
From Coq Require Import Reals List Lra Lia ZArith Arith Psatz Sorting.
From Verif Require Import Common.Py Common.Cplx Common.ListX Common.Erf Model.Helpers Model.Lut Model.Rates Proofs.ImpairR.
Import ListNotations.
Local Open Scope R_scope.

(** the argument of erfc, and the one-dimensional error probability *)
Definition xarg (snr M : R) : R := sqrt (3 * snr / (2 * (M - 1))).
Lemma xarg_nonneg snr M : 0 <= xarg snr M. Proof. apply sqrt_pos. Qed.
Lemma xarg_lt s1 s2 M : 1 < M -> 0 <= s1 -> s1 < s2 -> xarg s1 M < xarg s2 M.
Proof.
  intros HM H0 H. apply sqrt_lt_1_alt. assert (0 < / (2 * (M - 1))) by (apply Rinv_0_lt_compat; lra).
  unfold Rdiv. split; [apply Rmult_le_pos; lra|]. apply Rmult_lt_compat_r; lra.
Qed.
Lemma sqrtM M : 1 < M -> 1 < sqrt M /\ sqrt M * sqrt M = M.
Proof. intros H. split; [|apply sqrt_sqrt; lra]. rewrite <- sqrt_1. apply sqrt_lt_1_alt. lra. Qed.
Lemma inv_sqrtM M : 1 < M -> 0 < 1 / sqrt M < 1.
Proof.
  intros H. destruct (sqrtM M H) as [S _]. unfold Rdiv. rewrite Rmult_1_l. split; [apply Rinv_0_lt_compat; lra|].
  rewrite <- Rinv_1. apply Rinv_lt_contravar; lra.
Qed.
Lemma ser_form snr M : 1 < M -> ser_vs_es_over_n0_qam snr M = 1 - (1 - (1 - 1 / sqrt M) * erfc (xarg snr M)) ^ 2.
Proof.
  intros H. destruct (sqrtM M H) as [S E]. unfold ser_vs_es_over_n0_qam. fold (xarg snr M).
  generalize (erfc (xarg snr M)). intros e. rewrite <- E at 3. field. lra.
Qed.
Lemma p_range snr M : 1 < M -> 0 < (1 - 1 / sqrt M) * erfc (xarg snr M) < 1.
Proof.
  intros H. pose proof (inv_sqrtM M H). pose proof (erfc_pos _ (xarg_nonneg snr M)). pose proof (erfc_le_1 _ (xarg_nonneg snr M)).
  set (e := erfc _) in *. set (a := 1 / sqrt M) in *. split; nra.
Qed.
Lemma ser_range snr M : 1 < M -> 0 < ser_vs_es_over_n0_qam snr M < 1.
Proof. intros H. rewrite ser_form by exact H. pose proof (p_range snr M H). set (p := _ * erfc _) in *. split; nra. Qed.
Lemma ser_decr s1 s2 M : 1 < M -> 0 <= s1 -> s1 < s2 -> ser_vs_es_over_n0_qam s2 M < ser_vs_es_over_n0_qam s1 M.
Proof.
  intros H H0 Hs. rewrite !ser_form by exact H. pose proof (p_range s1 M H). pose proof (p_range s2 M H).
  pose proof (inv_sqrtM M H) as A. pose proof (erfc_lt _ _ (xarg_nonneg s1 M) (xarg_lt s1 s2 M H H0 Hs)).
  assert ((1 - 1 / sqrt M) * erfc (xarg s2 M) < (1 - 1 / sqrt M) * erfc (xarg s1 M)) by (apply Rmult_lt_compat_l; lra).
  set (p1 := _ * erfc (xarg s1 M)) in *. set (p2 := _ * erfc (xarg s2 M)) in *. nra.
Qed.
Lemma ser_zero M : 1 < M -> ser_vs_es_over_n0_qam 0 M = 1 - 1 / M.
Proof.
  intros H. rewrite ser_form by exact H. unfold xarg. replace (3 * 0 / (2 * (M - 1))) with 0 by (unfold Rdiv; ring).
  rewrite sqrt_0, erfc_0. destruct (sqrtM M H) as [S E]. rewrite <- E at 2. field. lra.
Qed.

(** ** Bit error rates *)
Lemma ln_sqrt M : 0 < M -> ln (sqrt M) = ln M / 2.
Proof.
  intros H. assert (0 < sqrt M) by (apply sqrt_lt_R0; exact H).
  rewrite <- (sqrt_sqrt M) at 2 by lra. rewrite ln_mult by assumption. lra.
Qed.
Lemma ln2_pos : 0 < ln 2. Proof. rewrite <- ln_1. apply ln_increasing; lra. Qed.
Lemma lnM_pos M : 1 < M -> 0 < ln M. Proof. intros. rewrite <- ln_1. apply ln_increasing; lra. Qed.
Lemma ber_form snr M : 1 < M -> 0 <= snr ->
  ber_vs_es_over_n0_qam snr M = (1 - 1 / sqrt M) / (log2 M / 2) * erfc (xarg snr M).
Proof.
  intros H Hs. destruct (sqrtM M H) as [S E]. pose proof ln2_pos. pose proof (lnM_pos M H).
  unfold ber_vs_es_over_n0_qam, q_function, log2. cbv zeta. rewrite ln_sqrt by lra.
  replace (sqrt M ^ 2) with M by (rewrite <- E at 1; ring).
  replace (3 * (ln M / 2 / ln 2) / (M - 1) * (2 * snr / (ln M / ln 2))) with (3 * snr / (2 * (M - 1)) * 2) by (field; lra).
  rewrite sqrt_mult_alt by (apply Rmult_le_pos; [lra|left; apply Rinv_0_lt_compat; lra]). fold (xarg snr M).
  assert (0 < sqrt 2) by (apply sqrt_lt_R0; lra).
  replace (xarg snr M * sqrt 2 / sqrt 2) with (xarg snr M) by (field; lra). field. lra.
Qed.
Lemma ber_ser snr M : 1 < M -> 0 <= snr ->
  ser_vs_es_over_n0_qam snr M = 1 - (1 - log2 M / 2 * ber_vs_es_over_n0_qam snr M) ^ 2.
Proof.
  intros H Hs. rewrite ser_form, ber_form by assumption. pose proof ln2_pos. pose proof (lnM_pos M H).
  assert (log2 M <> 0) by (unfold log2; apply Rgt_not_eq; apply Rdiv_lt_0_compat; lra).
  assert (sqrt M <> 0) by (destruct (sqrtM M H); lra). f_equal. f_equal. field. split; assumption.
Qed.
Lemma ln2_le_1 : ln 2 <= 1.
Proof. rewrite <- (ln_exp 1). left. apply ln_increasing; [lra|]. pose proof (exp_ineq1 1 ltac:(lra)). lra. Qed.
Lemma half_bound L : 2 <= L -> 2 * (1 - 1 / L) <= ln L / ln 2.
Proof.
  intros H. pose proof ln2_pos as P. pose proof ln2_le_1 as Q.
  pose proof (deriv_le (fun x => 2 * (1 - 1 / x)) (fun x => ln x * / ln 2) (fun x => 2 * (/ (x * x))) (fun x => / x * / ln 2) 2 L H) as D.
  assert (K : 2 * (1 - 1 / L) - 2 * (1 - 1 / 2) <= ln L * / ln 2 - ln 2 * / ln 2).
  { apply D.
    - intros c Hc. eapply dlim_eq.
      2:{ apply (derivable_pt_lim_scal (fun x => 1 - 1 / x) 2).
          apply (derivable_pt_lim_minus (fun _ => 1) (fun x => 1 / x)); [apply derivable_pt_lim_const|].
          apply (derivable_pt_lim_div (fun _ => 1) (fun x => x) c 0 1); [apply derivable_pt_lim_const|apply derivable_pt_lim_id|lra]. }
      unfold Rsqr. field. lra.
    - intros c Hc. eapply dlim_eq.
      2:{ apply (derivable_pt_lim_mult ln (fun _ => / ln 2)); [apply derivable_pt_lim_ln; lra|apply derivable_pt_lim_const]. }
      cbn beta. ring.
    - intros c Hc. rewrite Rinv_mult.
      assert (0 < / c) by (apply Rinv_0_lt_compat; lra).
      assert (2 * / c <= / ln 2).
      { apply (Rmult_le_reg_l c); [lra|]. replace (c * (2 * / c)) with 2 by (field; lra).
        apply (Rmult_le_reg_r (ln 2)); [exact P|]. rewrite Rmult_assoc, Rinv_l by lra. nra. }
      nra. }
  rewrite Rinv_r in K by lra. unfold Rdiv. lra.
Qed.
Lemma ber_range snr M : 4 <= M -> 0 <= snr -> 0 < ber_vs_es_over_n0_qam snr M <= 1 / 2.
Proof.
  intros H Hs. assert (H1 : 1 < M) by lra. rewrite ber_form by assumption.
  destruct (sqrtM M H1) as [S E]. pose proof (inv_sqrtM M H1). pose proof ln2_pos. pose proof (lnM_pos M H1) as LM.
  pose proof (erfc_pos _ (xarg_nonneg snr M)). pose proof (erfc_le_1 _ (xarg_nonneg snr M)).
  assert (S2 : 2 <= sqrt M) by nra.
  assert (LP : 0 < log2 M) by (unfold log2; apply Rdiv_lt_0_compat; lra).
  pose proof (half_bound _ S2) as HB. rewrite ln_sqrt in HB by lra.
  replace (ln M / 2 / ln 2) with (log2 M / 2) in HB by (unfold log2; field; lra).
  set (e := erfc _) in *. set (a := 1 - 1 / sqrt M) in *.
  assert (Q : 0 < a / (log2 M / 2) <= 1 / 2).
  { split; [apply Rdiv_lt_0_compat; unfold a in *; lra|]. apply (Rmult_le_reg_r (log2 M / 2)); [lra|]. unfold Rdiv at 1.
    rewrite Rmult_assoc, Rinv_l by lra. unfold a in *. lra. }
  split; [apply Rmult_lt_0_compat; lra|]. nra.
Qed.
Lemma ber_decr s1 s2 M : 1 < M -> 0 <= s1 -> s1 < s2 -> ber_vs_es_over_n0_qam s2 M < ber_vs_es_over_n0_qam s1 M.
Proof.
  intros H H0 Hs. rewrite !ber_form by lra. pose proof (inv_sqrtM M H). pose proof ln2_pos. pose proof (lnM_pos M H).
  assert (LP : 0 < log2 M) by (unfold log2; apply Rdiv_lt_0_compat; lra).
  apply Rmult_lt_compat_l; [apply Rdiv_lt_0_compat; lra|]. apply erfc_lt; [apply xarg_nonneg|apply xarg_lt; assumption].
Qed.
Lemma dB_opp x : dB2lin (- x) = / dB2lin x.
Proof. unfold dB2lin. replace (- x / 10) with (- (x / 10)) by (unfold Rdiv; ring). apply Rpower_Ropp. Qed.
Lemma ber_evm e M : 1 < M -> ber_vs_evm_qam e M = ber_vs_es_over_n0_qam (dB2lin (- e)) M.
Proof.
  intros H. unfold ber_vs_evm_qam, ber_vs_es_over_n0_qam. cbv zeta. rewrite dB_opp.
  assert (0 < dB2lin e) by (unfold dB2lin, Rpower; apply exp_pos). pose proof (lnM_pos M H). pose proof ln2_pos.
  apply f_equal. apply f_equal. apply f_equal. apply f_equal. unfold log2. field. lra.
Qed.
Lemma psk_range snr M : 1 <= M -> 0 < ser_vs_es_over_n0_psk snr M <= 1.
Proof.
  intros H. unfold ser_vs_es_over_n0_psk. pose proof PI_RGT_0. pose proof (sqrt_pos snr).
  assert (0 < / M) by (apply Rinv_0_lt_compat; lra). assert (/ M <= 1) by (rewrite <- Rinv_1; apply Rinv_le_contravar; lra).
  assert (0 <= sin (PI / M)) by (apply sin_ge_0; unfold Rdiv; nra).
  assert (0 <= sqrt snr * sin (PI / M)) by (apply Rmult_le_pos; assumption).
  split; [apply erfc_pos|apply erfc_le_1]; assumption.
Qed.
Lemma psk_decr s1 s2 M : 1 < M -> 0 <= s1 -> s1 < s2 -> ser_vs_es_over_n0_psk s2 M < ser_vs_es_over_n0_psk s1 M.
Proof.
  intros H H0 Hs. unfold ser_vs_es_over_n0_psk. pose proof PI_RGT_0. pose proof (sqrt_pos s1).
  assert (0 < / M) by (apply Rinv_0_lt_compat; lra). assert (/ M < 1) by (rewrite <- Rinv_1; apply Rinv_lt_contravar; lra).
  assert (0 < sin (PI / M)) by (apply sin_gt_0; unfold Rdiv; nra).
  apply erfc_lt; [apply Rmult_le_pos; lra|]. apply Rmult_lt_compat_r; [assumption|]. apply sqrt_lt_1_alt. lra.
Qed.
Lemma pam_range snr : 0 < ser_vs_es_over_n0_4pam snr <= 3 / 4.
Proof.
  unfold ser_vs_es_over_n0_4pam. pose proof (erfc_pos _ (sqrt_pos (snr / 5))). pose proof (erfc_le_1 _ (sqrt_pos (snr / 5))). lra.
Qed.

(** ** Probabilistic shaping *)
Lemma insert_in x l y : In y (insert_unique x l) <-> y = x \/ In y l.
Proof.
  induction l as [|a l IH]; cbn; [intuition congruence|].
  destruct (Rlt_dec x a); [cbn; intuition congruence|]. destruct (Rlt_dec a x); [cbn; rewrite IH; intuition congruence|].
  assert (x = a) by lra. subst. cbn. intuition congruence.
Qed.
Lemma unique_in l y : In y (unique l) <-> In y l.
Proof. induction l as [|a l IH]; [reflexivity|]. cbn [unique fold_right]. fold (unique l). rewrite insert_in, IH. cbn. intuition congruence. Qed.
Lemma insert_sorted x l : StronglySorted Rlt l -> StronglySorted Rlt (insert_unique x l).
Proof.
  induction 1 as [|a l Hl IH Ha]; cbn; [constructor; constructor|].
  destruct (Rlt_dec x a) as [h|h].
  - constructor; [constructor; assumption|]. constructor; [exact h|]. rewrite Forall_forall in *. intros y Hy. specialize (Ha y Hy). lra.
  - destruct (Rlt_dec a x) as [h'|h']; [|constructor; assumption].
    constructor; [exact IH|]. rewrite Forall_forall in *. intros y Hy. apply insert_in in Hy as [->|Hy]; auto.
Qed.
Lemma unique_sorted l : StronglySorted Rlt (unique l).
Proof. induction l as [|a l IH]; [constructor|]. apply insert_sorted. exact IH. Qed.
Lemma fold_acc {A} (f : A -> R) l a : fold_left (fun acc s => acc + f s) l a = a + Rsum (map f l).
Proof. revert a. induction l as [|x l IH]; intros a; cbn [fold_left map]; [cbn; ring|]. rewrite IH, Rsum_cons. ring. Qed.
Lemma ps_pos nu l : l <> [] -> 0 < Rsum (map (ps_weight nu) l).
Proof.
  destruct l as [|a l]; [congruence|]. intros _. cbn [map]. rewrite Rsum_cons. unfold ps_weight at 1.
  pose proof (exp_pos (- nu * Rabs a ^ 2)).
  assert (0 <= Rsum (map (ps_weight nu) l)); [|lra]. apply Rsum_nonneg. intros x Hx. apply in_map_iff in Hx as [s [<- _]]. left. apply exp_pos.
Qed.
Lemma ps_eq (symbols : list C) nu : cal_ps_probablts symbols nu =
  (unique (map fst symbols), map (fun s => ps_weight nu s / Rsum (map (ps_weight nu) (unique (map fst symbols)))) (unique (map fst symbols))).
Proof. unfold cal_ps_probablts. rewrite fold_acc, Rplus_0_l. reflexivity. Qed.
Lemma ps_ne (symbols : list C) : symbols <> [] -> unique (map fst symbols) <> [].
Proof.
  intros H E. destruct symbols as [|z l]; [congruence|].
  assert (In (fst z) (unique (map fst (z :: l)))) by (apply unique_in; left; reflexivity). rewrite E in H0. exact H0.
Qed.
Lemma ps_support symbols nu symbs px : cal_ps_probablts symbols nu = (symbs, px) ->
  StronglySorted Rlt symbs /\ (forall s, In s symbs <-> exists z, In z symbols /\ fst z = s) /\ length px = length symbs.
Proof.
  rewrite ps_eq. intros H. injection H as <- <-. split; [apply unique_sorted|]. split; [|apply map_length].
  intros s. rewrite unique_in, in_map_iff. split; intros [z [A B]]; exists z; split; assumption.
Qed.
Lemma ps_distribution symbols nu symbs px : symbols <> [] -> cal_ps_probablts symbols nu = (symbs, px) ->
  Forall (fun p => 0 < p) px /\ Rsum px = 1.
Proof.
  rewrite ps_eq. intros Hne H. injection H as <- <-. set (u := unique _). pose proof (ps_pos nu u (ps_ne _ Hne)) as P.
  split.
  - apply Forall_forall. intros p Hp. apply in_map_iff in Hp as [s [<- _]]. apply Rdiv_lt_0_compat; [apply exp_pos|exact P].
  - unfold Rdiv. transitivity (/ Rsum (map (ps_weight nu) u) * Rsum (map (ps_weight nu) u)); [|field; lra].
    rewrite <- Rsum_map_scal. f_equal. apply map_ext. intros; ring.
Qed.
Lemma ps_nth symbols nu symbs px i s p : symbols <> [] -> cal_ps_probablts symbols nu = (symbs, px) ->
  nth_error symbs i = Some s -> nth_error px i = Some p -> exists D, D = / Rsum (map (ps_weight nu) symbs) /\ 0 < D /\ p = D * exp (- nu * s ^ 2).
Proof.
  rewrite ps_eq. intros Hne H. injection H as <- <-. set (u := unique _). pose proof (ps_pos nu u (ps_ne _ Hne)) as P.
  intros Hs Hp. rewrite nth_error_map, Hs in Hp. cbn in Hp. injection Hp as <-.
  exists (/ Rsum (map (ps_weight nu) u)). split; [reflexivity|]. split; [apply Rinv_0_lt_compat; exact P|].
  unfold ps_weight at 1. rewrite pow2_abs. unfold Rdiv. ring.
Qed.
(** a complex symbol with independent parts gets the product of their probabilities *)
Lemma ps_power symbols nu symbs px i j k l si sj sk sl pi pj pk pl :
  symbols <> [] -> cal_ps_probablts symbols nu = (symbs, px) ->
  nth_error symbs i = Some si -> nth_error symbs j = Some sj -> nth_error symbs k = Some sk -> nth_error symbs l = Some sl ->
  nth_error px i = Some pi -> nth_error px j = Some pj -> nth_error px k = Some pk -> nth_error px l = Some pl ->
  (si ^ 2 + sj ^ 2 = sk ^ 2 + sl ^ 2 -> pi * pj = pk * pl) /\
  (0 < nu -> si ^ 2 + sj ^ 2 < sk ^ 2 + sl ^ 2 -> pk * pl < pi * pj).
Proof.
  intros Hne H A1 A2 A3 A4 B1 B2 B3 B4.
  destruct (ps_nth _ _ _ _ _ _ _ Hne H A1 B1) as [D [ED [PD ->]]].
  destruct (ps_nth _ _ _ _ _ _ _ Hne H A2 B2) as [D2 [ED2 [_ ->]]].
  destruct (ps_nth _ _ _ _ _ _ _ Hne H A3 B3) as [D3 [ED3 [_ ->]]].
  destruct (ps_nth _ _ _ _ _ _ _ Hne H A4 B4) as [D4 [ED4 [_ ->]]].
  rewrite <- ED in ED2, ED3, ED4. subst D2 D3 D4. clear ED.
  assert (E : forall a b, D * exp a * (D * exp b) = D * D * exp (a + b)) by (intros; rewrite exp_plus; ring).
  rewrite !E. split.
  - intros Hp. apply f_equal. apply f_equal. transitivity (- nu * (si ^ 2 + sj ^ 2)); [ring|]. rewrite Hp. ring.
  - intros Hn Hp. apply Rmult_lt_compat_l; [nra|]. apply exp_increasing. nra.
Qed.
Lemma ps_single symbols nu symbs px i j si sj pi pj : symbols <> [] -> cal_ps_probablts symbols nu = (symbs, px) ->
  nth_error symbs i = Some si -> nth_error symbs j = Some sj -> nth_error px i = Some pi -> nth_error px j = Some pj ->
  (Rabs si = Rabs sj -> pi = pj) /\ (0 < nu -> Rabs si < Rabs sj -> pj < pi) /\ (nu = 0 -> pi = pj).
Proof.
  intros Hne H A1 A2 B1 B2.
  destruct (ps_nth _ _ _ _ _ _ _ Hne H A1 B1) as [D [ED [PD ->]]].
  destruct (ps_nth _ _ _ _ _ _ _ Hne H A2 B2) as [D2 [ED2 [_ ->]]]. rewrite <- ED in ED2. subst D2. clear ED.
  rewrite <- (pow2_abs si), <- (pow2_abs sj). pose proof (Rabs_pos si). pose proof (Rabs_pos sj).
  split; [intros ->; reflexivity|]. split.
  - intros Hn Hp. apply Rmult_lt_compat_l; [exact PD|]. apply exp_increasing.
    assert (Rabs si ^ 2 < Rabs sj ^ 2) by nra. nra.
  - intros ->. f_equal. f_equal. ring.
Qed.

(** ** Concrete values *)
Lemma ber_pam snr M : 1 < M -> 0 <= snr -> ber_vs_es_over_n0_qam snr M * log2 (sqrt M) = (1 - 1 / sqrt M) * erfc (sqrt (3 * snr / (2 * (M - 1)))).
Proof.
  intros H Hs. rewrite ber_form by assumption. fold (xarg snr M). pose proof ln2_pos. pose proof (lnM_pos M H).
  unfold log2. rewrite ln_sqrt by lra. destruct (sqrtM M H). field. lra.
Qed.
Lemma sqrt_16 : sqrt 16 = 4.
Proof. replace 16 with (4 * 4) by ring. apply sqrt_square. lra. Qed.
Lemma sqrt_4 : sqrt 4 = 2.
Proof. replace 4 with (2 * 2) by ring. apply sqrt_square. lra. Qed.
Lemma pam_16 snr : ser_vs_es_over_n0_4pam snr = (1 - 1 / sqrt 16) * erfc (sqrt (3 * (2 * snr) / (2 * (16 - 1)))).
Proof.
  unfold ser_vs_es_over_n0_4pam. rewrite sqrt_16. replace (3 * (2 * snr) / (2 * (16 - 1))) with (snr / 5) by field. lra.
Qed.
Lemma rates_zero : ber_vs_es_over_n0_qam 0 4 = 1 / 2 /\ ser_vs_es_over_n0_4pam 0 = 3 / 4.
Proof.
  pose proof ln2_pos. split.
  - rewrite ber_form by lra. unfold xarg. replace (3 * 0 / (2 * (4 - 1))) with 0 by field. rewrite sqrt_0, erfc_0, sqrt_4.
    unfold log2. replace 4 with (2 * 2) by ring. rewrite ln_mult by lra. field. lra.
  - unfold ser_vs_es_over_n0_4pam. replace (0 / 5) with 0 by field. rewrite sqrt_0, erfc_0. lra.
Qed.
Lemma ps_qpsk : cal_ps_probablts [(1, 1); (-1, 1); (1, -1); (-1, -1)] 2 = ([-1; 1], [1 / 2; 1 / 2]).
Proof.
  rewrite ps_eq. assert (U : unique (map fst [(1, 1); (-1, 1); (1, -1); (-1, -1)]) = [-1; 1]).
  { unfold unique. cbn [map fst fold_right insert_unique].
    repeat (match goal with |- context [Rlt_dec ?a ?b] => destruct (Rlt_dec a b); try lra end; cbn [insert_unique]). reflexivity. }
  rewrite U. unfold ps_weight. cbn [map]. rewrite Rsum_cons, Rsum_cons.
  replace (Rabs (-1)) with 1 by (rewrite Rabs_left; lra). rewrite Rabs_R1. pose proof (exp_pos (- (2) * 1 ^ 2)). set (e := exp _) in *.
  apply f_equal2; [reflexivity|]. cbn [Rsum fold_right]. repeat (apply (f_equal2 cons)); try reflexivity; cbn; field; lra.
Qed.
Lemma ps_draw symbs pre pim re im : fancy_get pre symbs = Ok re -> fancy_get pim symbs = Ok im ->
  generate_ps_symbols symbs pre pim false = Ok (combine re im).
Proof. intros A B. unfold generate_ps_symbols. rewrite A, B. reflexivity. Qed.
Lemma ps_default : ~ exists symbs pre pim out, generate_ps_symbols symbs pre pim true = Ok out.
Proof.
  intros (symbs & pre & pim & out & H). unfold generate_ps_symbols in H.
  destruct (fancy_get pre symbs); [|discriminate]. cbn [bind] in H. destruct (fancy_get pim symbs); discriminate.
Qed.
