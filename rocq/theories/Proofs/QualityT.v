(** core/signal_quality.cal_evm: refutations for C24 *)
From Coq Require Import List ZArith Bool Lia Reals Lra Psatz Arith.
From Verif Require Import Common.Py Common.ListX Common.Cplx Model.Constellation Model.Quality Proofs.DecisionP Proofs.QualityQ.
Import ListNotations.
Local Open Scope R_scope.

Lemma Cabs_pow4 z : Cabs z ^ 4 = Cnorm2 z * Cnorm2 z.
Proof. rewrite <- Cabs_sqr. ring. Qed.
Lemma gamma_eq nb f : 0 < f -> cal_scaling_factor_qam nb = f ->
  cal_gamma nb = Rmean (map (fun z => Cnorm2 (ZtoC z) * Cnorm2 (ZtoC z) / (f * f)) (cal_symbols_qam nb)).
Proof.
  intros Hf E. unfold cal_gamma. rewrite E. f_equal. apply map_ext. intros z. unfold Rdiv. rewrite Rpow_mult_distr, Cabs_pow4.
  assert (Hs : sqrt f * sqrt f = f) by (apply sqrt_sqrt; lra). assert (0 < sqrt f) by now apply sqrt_lt_R0.
  replace ((/ sqrt f) ^ 4) with (/ (f * f)); [reflexivity|]. rewrite <- Hs at 1 2. field. lra.
Qed.
Lemma gamma2 : cal_gamma 2 = 1.
Proof.
  rewrite (gamma_eq 2 2); [|lra|unfold cal_scaling_factor_qam; cbn; lra].
  change (cal_symbols_qam 2) with [(-1, -1); (-1, 1); (1, -1); (1, 1)]%Z. unfold Rmean, Rsum, Cnorm2, ZtoC. cbn [map fold_right length fst snd INR]. lra.
Qed.
Definition syms4 := [(-3,-3);(-3,-1);(-3,1);(-3,3);(-1,-3);(-1,-1);(-1,1);(-1,3);(1,-3);(1,-1);(1,1);(1,3);(3,-3);(3,-1);(3,1);(3,3)]%Z.
Lemma syms4_eq : cal_symbols_qam 4 = syms4.
Proof. vm_compute. reflexivity. Qed.
Lemma gamma4 : cal_gamma 4 = 132 / 100.
Proof.
  rewrite (gamma_eq 4 10); [|lra|unfold cal_scaling_factor_qam; cbn [Nat.even]; rewrite pow_INR; cbn [INR]; lra].
  rewrite syms4_eq. unfold syms4, Rmean, Rsum, Cnorm2, ZtoC. cbn [map fold_right length fst snd INR]. lra.
Qed.
Lemma s0_eq e nb g r2 r4 rad w : e <> [] -> cal_gamma nb = g -> Rmean (map Cnorm2 e) = r2 -> Rmean (map (fun z => Cnorm2 z * Cnorm2 z) e) = r4 -> r4 <> 0 ->
  (2 - g) * (2 * r2 ^ 4 / r4 ^ 2 - r2 ^ 2 / r4) = rad -> 0 <= rad -> sqrt rad = w -> 1 - 2 * r2 ^ 2 / r4 - w <> 0 ->
  1 + (g * r2 ^ 2 / r4 - 1) / (1 - 2 * r2 ^ 2 / r4 - w) <> 0 ->
  cal_s0 e nb = Some (r2 / (1 + (g * r2 ^ 2 / r4 - 1) / (1 - 2 * r2 ^ 2 / r4 - w))).
Proof.
  intros Hne Hg H2 H4 N4 Hr Hr0 Hw N1 N2. unfold cal_s0. destruct e as [|z e]; [congruence|].
  rewrite (map_ext (fun z => Cabs z ^ 2) Cnorm2) by (intros; apply Cabs_pow2). rewrite (map_ext (fun z => Cabs z ^ 4) (fun z => Cnorm2 z * Cnorm2 z)) by (intros; apply Cabs_pow4).
  rewrite Hg, H2, H4, Hr, Hw. cbv zeta. destruct (Req_EM_T r4 0); [contradiction|]. destruct (Rlt_dec rad 0); [lra|].
  destruct (Req_EM_T _ 0); [contradiction|]. destruct (Req_EM_T _ 0); [contradiction|]. reflexivity.
Qed.
Lemma s0_single z nb g w : 0 < Cnorm2 z -> cal_gamma nb = g -> 0 <= 2 - g -> sqrt (2 - g) = w -> 1 + (g - 1) / (-1 - w) <> 0 ->
  cal_s0 [z] nb = Some (Cnorm2 z / (1 + (g - 1) / (-1 - w))).
Proof.
  intros Hz Hg H2 Hw HN. assert (0 <= w) by (rewrite <- Hw; apply sqrt_pos). set (p := Cnorm2 z) in *.
  rewrite (s0_eq [z] nb g p (p * p) (2 - g) w); [| discriminate|assumption| | | | |assumption|assumption| |].
  - f_equal. replace (g * p ^ 2 / (p * p)) with g by (field; lra). replace (1 - 2 * p ^ 2 / (p * p)) with (-1) by (field; lra). reflexivity.
  - unfold Rmean. cbn [map Rsum fold_right length INR]. fold p. lra.
  - unfold Rmean. cbn [map Rsum fold_right length INR]. fold p. lra.
  - assert (0 < p * p) by nra. lra.
  - field. lra.
  - replace (1 - 2 * p ^ 2 / (p * p)) with (-1) by (field; lra). lra.
  - replace (g * p ^ 2 / (p * p)) with g by (field; lra). replace (1 - 2 * p ^ 2 / (p * p)) with (-1) by (field; lra). assumption.
Qed.

Lemma norm_single z nb s0 : cal_s0 [z] nb = Some s0 -> 0 < s0 -> norm_to_s0 [z] nb = Some [Cscal (/ sqrt s0) z].
Proof. intros E H. unfold norm_to_s0. rewrite E. destruct (Rlt_dec 0 s0); [reflexivity|contradiction]. Qed.
Lemma qpsk_norm z : 0 < Cnorm2 z -> norm_to_s0 [z] 2 = Some [Cscal (/ sqrt (Cnorm2 z)) z].
Proof.
  intros Hz. unfold norm_to_s0. rewrite (s0_single z 2 1 1); [|assumption|exact gamma2|lra| |lra].
  - replace (Cnorm2 z / (1 + (1 - 1) / (-1 - 1))) with (Cnorm2 z) by (field; lra). destruct (Rlt_dec 0 (Cnorm2 z)); [reflexivity|contradiction].
  - replace (2 - 1) with 1 by ring. apply sqrt_1.
Qed.
Lemma zero_evm l : sqrt (Rmean (map (fun p : C * C => Cnorm2 (fst p - snd p)%C) (combine l l)) / Rmean (map Cnorm2 l)) = 0.
Proof.
  replace (Rmean (map (fun p : C * C => Cnorm2 (fst p - snd p)%C) (combine l l))) with 0; [unfold Rdiv; rewrite Rmult_0_l; apply sqrt_0|].
  symmetry. unfold Rmean. rewrite (map_ext_in _ (fun _ => 0)).
  - rewrite Rsum_map_const. unfold Rdiv. ring.
  - intros [a b] Hin. assert (a = b). { clear - Hin. induction l as [|x l IH]; [destruct Hin|]. destruct Hin as [E|Hin]; [congruence|auto]. } subst. cbn [fst snd]. rewrite Csub_diag. apply Cnorm2_0.
Qed.
Lemma core_evm_same a b nb p : norm_to_s0 a nb = Some p -> norm_to_s0 b nb = Some p -> core_evm b nb (Some a) = Some 0.
Proof. intros Ha Hb. unfold core_evm. rewrite Ha, Hb. f_equal. apply zero_evm. Qed.
Lemma core_evm_scale : core_evm [(2, 2)] 2 (Some [(1, 1)]) = Some 0.
Proof.
  assert (E1 : Cnorm2 (1, 1) = 2) by (unfold Cnorm2; cbn; ring). assert (E2 : Cnorm2 (2, 2) = 8) by (unfold Cnorm2; cbn; ring).
  assert (Es : sqrt 8 = 2 * sqrt 2). { replace 8 with (2 * 2 * 2) by ring. rewrite sqrt_mult_alt by lra. rewrite sqrt_square by lra. ring. }
  assert (0 < sqrt 2) by (apply sqrt_lt_R0; lra).
  apply core_evm_same with [Cscal (/ sqrt 2) (1, 1)].
  - rewrite <- E1. apply qpsk_norm. lra.
  - transitivity (Some [Cscal (/ sqrt 8) (2, 2)]); [rewrite <- E2; apply qpsk_norm; lra|]. do 2 f_equal. rewrite Es. apply C_eq; cbn [Cscal fst snd]; field; lra.
Qed.

Lemma min_dist2_pos x l m : min_dist2 x l = Some m -> (forall t, In t l -> t <> x) -> 0 < m.
Proof.
  destruct l as [|s l]; [discriminate|]. cbn [min_dist2]. intros E H.
  assert (Hp : forall t, In t (s :: l) -> 0 < Cnorm2 (x - t)%C).
  { intros t Ht. destruct (Cnorm2_nonneg (x - t)%C) as [Hc|Hc]; [assumption|]. exfalso. apply (H t Ht). symmetry. now apply Csub_eq0, Cnorm2_zero. }
  apply (f_equal (fun o => match o with Some w => w | None => 0 end)) in E. cbv beta iota in E. rewrite <- E. clear E.
  assert (H0 : 0 < Cnorm2 (x - s)%C) by (apply Hp; now left). revert H0. generalize (Cnorm2 (x - s)%C). intros q Hq. assert (Hp' : forall t, In t l -> 0 < Cnorm2 (x - t)%C) by (intros; apply Hp; now right).
  clear - Hq Hp'. revert q Hq. induction l as [|a l IH]; intros q Hq; cbn [fold_left]; [assumption|]. apply IH; [intros; apply Hp'; now right|].
  apply Rmin_glb_lt; [assumption|apply Hp'; now left].
Qed.
Lemma norm4 : norm_to_s0 (map ZtoC (cal_symbols_qam 4)) 4 = Some (map (Cscal (/ sqrt 10)) (map ZtoC syms4)).
Proof.
  unfold norm_to_s0. rewrite syms4_eq. rewrite (s0_eq _ 4 (132 / 100) 10 132 ((68 / 132) * (68 / 132)) (68 / 132)); try exact gamma4.
  - replace (10 / (1 + (132 / 100 * 10 ^ 2 / 132 - 1) / (1 - 2 * 10 ^ 2 / 132 - 68 / 132))) with 10 by field. destruct (Rlt_dec 0 10); [reflexivity|lra].
  - discriminate.
  - unfold syms4, Rmean, Rsum, Cnorm2, ZtoC. cbn [map fold_right length fst snd INR]. lra.
  - unfold syms4, Rmean, Rsum, Cnorm2, ZtoC. cbn [map fold_right length fst snd INR]. lra.
  - lra.
  - field.
  - lra.
  - apply sqrt_square. lra.
  - lra.
  - lra.
Qed.
Lemma core_evm_blind_above : exists e, core_evm [(3, 3)] 4 (Some [(3, 3)]) = Some 0 /\ core_evm [(3, 3)] 4 None = Some e /\ 0 < e.
Proof.
  set (w := sqrt (2 - 132 / 100)). assert (Hw : w * w = 68 / 100) by (unfold w; rewrite sqrt_sqrt; lra). assert (Hw0 : 0 <= w) by apply sqrt_pos.
  assert (Hw1 : 8 / 10 < w) by nra. assert (Hw2 : w < 83 / 100) by nra.
  assert (En : Cnorm2 (3, 3) = 18) by (unfold Cnorm2; cbn; ring).
  assert (Hd : 1 + (132 / 100 - 1) / (-1 - w) = (68 / 100 + w) / (1 + w)) by (field; lra).
  assert (Hq : 0 < (68 / 100 + w) / (1 + w)) by (apply Rmult_lt_0_compat; [lra|apply Rinv_0_lt_compat; lra]).
  set (s := 18 / ((68 / 100 + w) / (1 + w))). assert (Hs : s * (68 / 100 + w) = 18 * (1 + w)) by (unfold s; field; lra).
  assert (Hs0 : 0 < s) by (apply Rmult_lt_0_compat; [lra|now apply Rinv_0_lt_compat]).
  assert (Ens : norm_to_s0 [(3, 3)] 4 = Some [Cscal (/ sqrt s) (3, 3)]).
  { apply norm_single; [|assumption]. unfold s. rewrite <- En, <- Hd. apply s0_single; [lra|exact gamma4|lra|reflexivity|rewrite Hd; lra]. }
  set (x := Cscal (/ sqrt s) (3, 3)) in *.
  assert (Eb : exists m, min_dist2 x (map (Cscal (/ sqrt 10)) (map ZtoC syms4)) = Some m) by (eexists; reflexivity).
  destruct Eb as (m & Em).
  assert (Hm : 0 < m).
  { eapply min_dist2_pos; [exact Em|]. intros t Ht E. apply in_map_iff in Ht as (c & <- & Hc). apply in_map_iff in Hc as (zc & <- & Hz).
    unfold x in E. apply (f_equal fst) in E. cbn [Cscal fst ZtoC] in E. set (a := fst zc) in *.
    assert (Ha : (a * a = 1 \/ a * a = 9)%Z). { unfold a. clear - Hz. unfold syms4 in Hz. cbn [In] in Hz. intuition (subst; cbn [fst]; auto). }
    assert (S10 : sqrt 10 * sqrt 10 = 10) by (apply sqrt_sqrt; lra). assert (Ss : sqrt s * sqrt s = s) by (apply sqrt_sqrt; lra).
    assert (0 < sqrt 10) by (apply sqrt_lt_R0; lra). assert (0 < sqrt s) by now apply sqrt_lt_R0.
    assert (E1 : IZR a * sqrt s = 3 * sqrt 10).
    { replace (IZR a * sqrt s) with (/ sqrt 10 * IZR a * (sqrt 10 * sqrt s)) by (field; lra). rewrite E. field. lra. }
    assert (E2 : IZR (a * a) * s = 90).
    { rewrite mult_IZR. replace (IZR a * IZR a * s) with ((IZR a * sqrt s) * (IZR a * sqrt s)) by (rewrite <- Ss; ring_simplify; rewrite !Ss; ring_simplify; nra).
      rewrite E1. nra. }
    destruct Ha as [Ha|Ha]; rewrite Ha in E2; nra. }
  eexists. split; [eapply core_evm_same; exact Ens|]. unfold core_evm, core_evm_blind. rewrite norm4, Ens.
  cbn [map]. rewrite Em. cbn [all_some]. split; [reflexivity|].
  apply sqrt_lt_R0. apply Rmult_lt_0_compat; [unfold Rmean; cbn [Rsum fold_right length INR]; lra|].
  apply Rinv_0_lt_compat. unfold Rmean. apply Rmult_lt_0_compat; [|apply Rinv_0_lt_compat, lt_0_INR; cbn; lia].
  rewrite map_map, (map_ext _ (fun z => (/ sqrt 10 * / sqrt 10) * Cnorm2 z)) by (intros; apply Cnorm2_scal). rewrite Rsum_map_scal.
  apply Rmult_lt_0_compat; [assert (0 < / sqrt 10) by (apply Rinv_0_lt_compat, sqrt_lt_R0; lra); nra|].
  unfold syms4, Rsum, Cnorm2, ZtoC. cbn [map fold_right fst snd]. lra.
Qed.
