(** Proofs about Model/TheorySim.v. *)
From Coq Require Import String List ZArith Arith Bool Permutation Lia Reals Lra Psatz.
From Verif Require Import Spec.Geometry Common.Py Common.ListX Common.Cplx Common.SumX Model.Constellation Model.Helpers Model.Phase Model.Quality Model.TheorySim
  Spec.ImpairSpec Spec.Metrics Spec.PhaseSpec Proofs.MapP Proofs.QamP Proofs.PilotP Proofs.QualityP Proofs.QualityR Proofs.QualityS Proofs.PhaseQ Proofs.PilotRxQ.
Import ListNotations.
Local Open Scope R_scope.

(** ** sums of exponentials over a spaced alphabet *)
Lemma noisy_term p q z c d G : 0 <= c -> 2 * G <= d -> 0 <= d -> d <= Cabs (p - q)%C -> Cabs z <= G ->
  exp (- c * (2 * fst (z * (p - q))%C + Cabs (p - q)%C ^ 2)) <= exp (- c * (d * (d - 2 * G))).
Proof.
  intros Hc HG Hd HD Hz. set (D := Cabs (p - q)%C) in *.
  assert (F : - (D * G) <= fst (z * (p - q))%C).
  { pose proof (fst_le_abs (- (z * (p - q)))%C) as W. assert (E : Cabs (- (z * (p - q)))%C = Cabs z * D) by (unfold Cabs at 1; rewrite Cnorm2_opp; apply Cabs_mul).
    rewrite E in W. cbn [fst Copp] in W. assert (Cabs z * D <= G * D) by (apply Rmult_le_compat_r; [apply Cabs_nonneg|exact Hz]). lra. }
  assert (H : d * (d - 2 * G) <= 2 * fst (z * (p - q))%C + D ^ 2).
  { assert (d * (d - 2 * G) <= D * (D - 2 * G)) by (apply Rmult_le_compat; lra). nra. }
  destruct (Rle_lt_or_eq_dec (- c * (2 * fst (z * (p - q))%C + D ^ 2)) (- c * (d * (d - 2 * G)))) as [L|L]; [nra| |].
  - left. apply exp_increasing. exact L.
  - right. now rewrite L.
Qed.
Lemma Rsum_le_const {A} (f : A -> R) l e : (forall x, In x l -> f x <= e) -> Rsum (map f l) <= INR (length l) * e.
Proof.
  intros H. induction l as [|a l IH]; [cbn; lra|]. cbn [map length]. rewrite Rsum_cons, S_INR.
  pose proof (H a (or_introl eq_refl)). assert (Rsum (map f l) <= INR (length l) * e) by (apply IH; intros x Hx; apply H; now right). lra.
Qed.
Lemma spaced_sum cs d p (f : C -> R) e : (forall a b u w, a <> b -> nth_error cs a = Some u -> nth_error cs b = Some w -> d <= Cabs (u - w)%C) ->
  In p cs -> 0 <= e -> (forall q, d <= Cabs (p - q)%C -> f q <= e) -> Rsum (map f cs) <= f p + INR (length cs) * e.
Proof.
  intros Hd Hp He Hf. apply In_nth_error in Hp as (a & Ha). destruct (nth_error_split cs a Ha) as (l1 & l2 & E & La).
  assert (O : forall q, In q l1 \/ In q l2 -> f q <= e).
  { intros q Hq. apply Hf. assert (Hb : exists b, b <> a /\ nth_error cs b = Some q).
    { destruct Hq as [Hq|Hq]; apply In_nth_error in Hq as (j & Hj).
      - exists j. assert (j < length l1)%nat by (apply nth_error_Some; congruence). split; [lia|]. rewrite E, nth_error_app1 by assumption. exact Hj.
      - exists (length l1 + S j)%nat. split; [lia|]. rewrite E, nth_error_app2 by lia. replace (length l1 + S j - length l1)%nat with (S j) by lia. exact Hj. }
    destruct Hb as (b & Nb & Eb). apply (Hd a b); auto. }
  rewrite E, map_app, app_length. cbn [map length]. rewrite Rsum_app, Rsum_cons, plus_INR, S_INR.
  pose proof (Rsum_le_const f l1 e (fun q Hq => O q (or_introl Hq))). pose proof (Rsum_le_const f l2 e (fun q Hq => O q (or_intror Hq))). lra.
Qed.
Lemma log2_le x y : 0 < x -> x <= y -> log2 x <= log2 y.
Proof.
  intros Hx H. unfold log2. apply Rmult_le_compat_r; [left; apply Rinv_0_lt_compat, ln2_pos|].
  destruct H as [H| ->]; [left; now apply ln_increasing|lra].
Qed.

(** ** cal_gmi *)
Lemma gmi_mc_lower k mp snr z d G v : (1 <= k)%nat -> lib_mapping k mp -> z <> [] -> 0 <= snr -> 0 <= d -> 2 * G <= d ->
  (forall a b u w, a <> b -> nth_error (coded_symbols mp) a = Some u -> nth_error (coded_symbols mp) b = Some w -> d <= Cabs (u - w)%C) ->
  (forall x, In x z -> Cabs x <= G) -> cal_gmi_mc (coded_symbols mp) k snr z (bitmap_mtx mp) = Ok v ->
  INR k - INR k * log2 (1 + 2 ^ k * exp (- snr * (d * (d - 2 * G)))) <= v.
Proof.
  intros Hk Hm Hz Hs Hd0 HG Hd Hzz. destruct (lib_facts k mp Hk Hm) as (_ & HL & _ & Hne). destruct (lib_bitmap k mp Hk Hm) as (HLb & Hb). set (cs := coded_symbols mp) in *.
  set (e := exp (- snr * (d * (d - 2 * G)))). assert (He : 0 < e) by apply exp_pos. assert (HM : INR (length cs) = 2 ^ k) by (rewrite HL, pow_INR; reflexivity).
  set (B := 1 + 2 ^ k * e).
  unfold cal_gmi_mc. destruct (mapM _ (seq 0 k)) as [parts|er] eqn:Em; [|discriminate]. cbn [bind]. intros Ev.
  assert (Ev' : v = INR k - Rsum parts / (INR (length cs) * INR (length z))) by congruence. subst v. clear Ev.
  assert (Hlen : length parts = k) by (apply mapM_length in Em; rewrite seq_length in Em; exact Em).
  assert (Hpos : 0 < INR (length cs) * INR (length z)).
  { apply Rmult_lt_0_compat; apply lt_0_INR; [destruct cs|destruct z]; cbn; try congruence; lia. }
  assert (HB : 1 <= B) by (unfold B; assert (0 < 2 ^ k) by (apply pow_lt; lra); assert (0 < 2 ^ k * e) by (now apply Rmult_lt_0_compat); lra).
  pose proof (log2_nonneg B HB) as HlB.
  assert (Hp : forall x, In x parts -> x <= INR (length cs) * INR (length z) * log2 B).
  { intros x Hx. apply In_nth_error in Hx as (b & Hx).
    assert (Hbk : (b < k)%nat) by (apply nth_error_Some_lt in Hx; lia).
    destruct (mapM_nth _ _ _ b b Em) as (y & Hy & Hf); [now apply nth_error_seq|]. assert (y = x) by congruence. subst y.
    destruct (Hb b Hbk) as (zs & os & Hr & Lz & Lo & Ez & Eo). unfold getn in Hf. rewrite Hr in Hf. cbn [bind] in Hf. apply (f_equal (fun o => match o with Ok w => w | Err _ => 0 end)) in Hf. cbv beta iota in Hf. rewrite <- Hf. clear Hf. cbn [fst snd].
    assert (Hin : forall l, l = zs \/ l = os -> forall sym, In sym l -> In sym cs).
    { intros l Hl sym Hsym. apply (in_map Some) in Hsym. destruct Hl as [-> | ->]; [rewrite Ez in Hsym|rewrite Eo in Hsym]; apply in_map_iff in Hsym as (j & Ej & _); eapply nth_error_In; exact Ej. }
    assert (Hone : forall l, l = zs \/ l = os -> Rsum (map (fun zz => Rsum (map (fun sym => log2 (cal_exp_sum sym cs zz snr / cal_exp_sum sym l zz snr)) l)) z) <= INR (length z) * (INR (length l) * log2 B)).
    { intros l Hl. apply Rsum_le_const. intros zz Hzi. apply Rsum_le_const. intros sym Hsym.
      set (f := fun s => exp (- snr * (2 * fst (zz * (sym - s))%C + Cabs (sym - s)%C ^ 2))).
      assert (Hself : f sym = 1).
      { unfold f. replace (sym - sym)%C with C0 by cring. replace (2 * fst (zz * C0)%C + Cabs C0 ^ 2) with 0; [rewrite Rmult_0_r; apply exp_0|].
        assert (Z : Cabs C0 = 0) by (now apply Cabs_0). rewrite Z. unfold Cmul, C0. cbn [fst snd]. ring. }
      assert (D1 : 1 <= cal_exp_sum sym l zz snr).
      { unfold cal_exp_sum. fold f. rewrite <- Hself. apply Rsum_ge_in; [intros y _; left; apply exp_pos|exact Hsym]. }
      assert (N1 : cal_exp_sum sym cs zz snr <= B).
      { unfold cal_exp_sum. fold f. unfold B. rewrite <- HM, <- Hself. apply (spaced_sum cs d sym f e); [exact Hd|eapply Hin; eassumption|lra|].
        intros q Hq. unfold f, e. apply noisy_term; auto. }
      assert (N0 : 0 < cal_exp_sum sym cs zz snr) by (apply Rsum_pos; [destruct cs; [contradiction|discriminate]|intros u Hu; apply in_map_iff in Hu as (w & <- & _); apply exp_pos]).
      apply log2_le; [apply Rmult_lt_0_compat; [exact N0|apply Rinv_0_lt_compat; lra]|].
      apply Rmult_le_reg_r with (cal_exp_sum sym l zz snr); [lra|]. unfold Rdiv. rewrite Rmult_assoc, Rinv_l by lra. nra. }
    cbn [map]. rewrite !Rsum_cons. change (Rsum []) with 0.
    pose proof (Hone zs (or_introl eq_refl)) as H1. pose proof (Hone os (or_intror eq_refl)) as H2.
    assert (HS : INR (length cs) = INR (length zs) + INR (length os)).
    { rewrite <- plus_INR. apply f_equal. rewrite HL, Lz, Lo. destruct k; [lia|]. cbn [Nat.pow]. replace (S k - 1)%nat with k by lia. lia. }
    rewrite HS. lra. }
  pose proof (Rsum_le_const (fun x => x) parts _ Hp) as HP. rewrite map_id, Hlen in HP.
  assert (Rsum parts / (INR (length cs) * INR (length z)) <= INR k * log2 B); [|lra].
  apply Rmult_le_reg_r with (INR (length cs) * INR (length z)); [exact Hpos|]. unfold Rdiv. rewrite Rmult_assoc, Rinv_l by lra. lra.
Qed.
Lemma pow10_pos x : 0 < pow10 x.
Proof. apply exp_pos. Qed.
Lemma noise_bound lin g G : 0 < lin -> (forall z, In z g -> Cabs z <= G) -> forall z, In z (gmi_noise lin g) -> Cabs z <= G / sqrt (2 * lin).
Proof.
  intros Hl H z Hz. unfold gmi_noise in Hz. apply in_map_iff in Hz as (w & <- & Hw).
  assert (S2 : 0 < sqrt 2) by (apply sqrt_lt_R0; lra). assert (Sl : 0 < sqrt lin) by (now apply sqrt_lt_R0).
  assert (E : sqrt (1 / lin) / sqrt 2 = / sqrt (2 * lin)).
  { rewrite sqrt_mult by lra. unfold Rdiv at 2. rewrite Rmult_1_l, sqrt_inv. field. split; lra. }
  rewrite E. assert (P : 0 < / sqrt (2 * lin)) by (apply Rinv_0_lt_compat, sqrt_lt_R0; lra).
  assert (A : Cabs (Cscal (/ sqrt (2 * lin)) w) = / sqrt (2 * lin) * Cabs w).
  { unfold Cabs. rewrite Cnorm2_scal, sqrt_mult; [|nra|apply Cnorm2_nonneg]. rewrite sqrt_square by lra. reflexivity. }
  rewrite A. unfold Rdiv. rewrite (Rmult_comm G). apply Rmult_le_compat_l; [lra|]. now apply H.
Qed.
Lemma theory_gmi k snr g : (1 <= k)%nat -> length snr = length g -> Forall (fun l => l <> []) g ->
  exists mp vs, qam_mapping k = Ok mp /\ theory_cal_gmi k snr g = Ok (map Some vs) /\ length vs = length snr /\
    forall i s l v, nth_error snr i = Some s -> nth_error g i = Some l -> nth_error vs i = Some v ->
      v <= INR k /\
      forall d G, minimum_distance (coded_symbols mp) d -> 0 <= d -> (forall z, In z l -> Cabs z <= G) ->
        let lin := Rpower 10 (s / 10) in let G' := G / sqrt (2 * lin) in 2 * G' <= d ->
        INR k - INR k * (ln (1 + 2 ^ k * exp (- lin * (d * (d - 2 * G')))) / ln 2) <= v.
Proof.
  intros Hk Hl Hg. destruct (qam_mapping_ok k Hk) as (mp & Em & _). exists mp. unfold theory_cal_gmi. rewrite Em. cbn [bind].
  assert (Hm : lib_mapping k mp) by (now left).
  revert g Hl Hg; induction snr as [|s snr IH]; intros [|l g] Hl Hg; try discriminate.
  - exists []. split; [reflexivity|]. split; [reflexivity|]. split; [reflexivity|]. intros i ? ? ? E; destruct i; discriminate.
  - apply Forall_cons_iff in Hg as [Hne Hg]. destruct (IH g ltac:(cbn in Hl; lia) Hg) as (vs & _ & E & Lv & Hv).
    set (lin := pow10 (s / 10)).
    assert (Hz : gmi_noise lin l <> []) by (destruct l; [contradiction|discriminate]).
    destruct (c26_gmi_mc k mp lin (gmi_noise lin l) Hk Hm Hz) as (v & Ev & Hvk). exists (v :: vs). split; [reflexivity|]. split; [|split; [cbn; now rewrite Lv|]].
    + cbn [combine mapM fst snd]. fold lin. destruct l as [|l0 l']; [contradiction|]. rewrite Ev. cbn [bind]. rewrite E. reflexivity.
    + intros [|i] s' l' v' E1 E2 E3; [|now apply (Hv i)]. cbn in E1, E2, E3. assert (s' = s) by congruence. assert (l' = l) by congruence. assert (v' = v) by congruence. subst.
      split; [exact Hvk|]. cbv zeta. intros d G Hd Hd0 HG HGd.
      apply (gmi_mc_lower k mp lin (gmi_noise lin l) d (G / sqrt (2 * lin)) v); auto; [left; apply pow10_pos|apply Hd|]. apply noise_bound; [apply pow10_pos|exact HG].
Qed.
Lemma theory_gmi_app k s1 s2 g1 g2 : length s1 = length g1 -> theory_cal_gmi k (s1 ++ s2) (g1 ++ g2) =
  (let! a := theory_cal_gmi k s1 g1 in let! b := theory_cal_gmi k s2 g2 in Ok (a ++ b)).
Proof.
  intros H. unfold theory_cal_gmi. destruct (qam_mapping k) as [mp|e]; [|reflexivity]. cbn [bind].
  revert g1 H; induction s1 as [|s s1 IH]; intros [|l g1] H; try discriminate.
  - cbn [app combine mapM bind]. destruct (mapM _ (combine s2 g2)); reflexivity.
  - cbn [app combine mapM]. destruct (match snd (s, l) with [] => _ | _ => _ end); [|reflexivity]. cbn [bind]. rewrite IH by (cbn in H; lia).
    destruct (mapM _ (combine s1 g1)); [|reflexivity]. cbn [bind]. destruct (mapM _ (combine s2 g2)); reflexivity.
Qed.

(** ** sim_mi_mc *)
Lemma power_scal a l : mean_power (map (Cscal a) l) = a * a * mean_power l.
Proof.
  unfold mean_power, Rmean. rewrite !map_map, !map_length. rewrite (map_ext _ (fun z => (a * a) * Cnorm2 z)) by (intros z; apply Cnorm2_scal).
  rewrite Rsum_map_scal. unfold Rdiv. ring.
Qed.
Lemma power_nonneg l : 0 <= mean_power l.
Proof.
  unfold mean_power, Rmean. destruct l as [|z l]; [cbn; unfold Rdiv; rewrite Rmult_0_l; lra|]. apply Rmult_le_pos.
  - apply Rsum_nonneg. intros x Hx. apply in_map_iff in Hx as (w & <- & _). apply Cnorm2_nonneg.
  - left. apply Rinv_0_lt_compat, lt_0_INR. rewrite map_length. cbn; lia.
Qed.
Lemma sim_scale a l snr g : 0 < a -> sim_mi_mc (map (Cscal a) l) snr g = sim_mi_mc l snr g.
Proof.
  intros Ha. unfold sim_mi_mc. rewrite power_scal. destruct (Req_EM_T (mean_power l) 0) as [E|E].
  - destruct (Req_EM_T _ 0) as [F|F]; [rewrite map_map; reflexivity|]. exfalso. apply F. rewrite E. ring.
  - destruct (Req_EM_T _ 0) as [F|F]; [exfalso; apply E; assert (0 < a * a) by nra; apply Rmult_integral in F as [F|F]; [lra|exact F]|].
    pose proof (power_nonneg l) as P.
    assert (K : map (Cscal (/ sqrt (a * a * mean_power l))) (map (Cscal a) l) = map (Cscal (/ sqrt (mean_power l))) l).
    { rewrite map_map. apply map_ext. intros z. rewrite sqrt_mult by nra. rewrite sqrt_square by lra.
      assert (Q : 0 < sqrt (mean_power l)) by (apply sqrt_lt_R0; lra). apply C_eq; unfold Cscal; cbn [fst snd]; field; lra. }
    rewrite K. reflexivity.
Qed.
Lemma sim_array l snr g : mean_power l <> 0 -> exists a, 0 < a /\ fst (sim_mi_mc l snr g) = map Some (map (Cscal a) l) /\ sample_power (map (Cscal a) l) = 1.
Proof.
  intros H. pose proof (power_nonneg l) as P. assert (Q : 0 < sqrt (mean_power l)) by (apply sqrt_lt_R0; lra).
  exists (/ sqrt (mean_power l)). split; [now apply Rinv_0_lt_compat|]. unfold sim_mi_mc. destruct (Req_EM_T _ 0); [contradiction|]. cbn [fst]. split; [reflexivity|].

  assert (E : sample_power (map (Cscal (/ sqrt (mean_power l))) l) = mean_power (map (Cscal (/ sqrt (mean_power l))) l)) by (unfold sample_power, mean_power, Rmean; rewrite !map_length; reflexivity).
  rewrite E, power_scal, <- Rinv_mult, sqrt_sqrt by lra. now apply Rinv_l.
Qed.
Lemma mi_mc_perm ns l l' N0 : Permutation l l' -> cal_mi_mc ns l N0 = cal_mi_mc ns l' N0.
Proof.
  intros P. unfold cal_mi_mc. destruct ns as [|n ns]; [reflexivity|]. set (n' := n :: ns).
  assert (S : forall f : C -> R, Rsum (map f l) = Rsum (map f l')) by (intros f; apply Rsum_perm, Permutation_map, P).
  assert (L : length l = length l') by (now apply Permutation_length).
  destruct l as [|x l]; destruct l' as [|y l']; try discriminate; [reflexivity|]. set (al := x :: l) in *. set (al' := y :: l') in *.
  apply (f_equal Some). rewrite L, S. apply (f_equal (fun x => log2 (INR (length al')) - x / INR (length al') / INR (length n'))).
  apply f_equal. apply map_ext. intros si. apply f_equal. apply map_ext. intros z. apply f_equal. apply S.
Qed.
Lemma sim_perm l l' snr g : Permutation l l' -> snd (sim_mi_mc l snr g) = snd (sim_mi_mc l' snr g).
Proof.
  intros P. unfold sim_mi_mc. assert (E : mean_power l = mean_power l').
  { unfold mean_power, Rmean. rewrite !map_length, (Permutation_length P). apply (f_equal (fun x => x / _)). apply Rsum_perm, Permutation_map, P. }
  rewrite E. destruct (Req_EM_T _ 0); [reflexivity|]. cbn [snd]. apply mi_mc_perm, Permutation_map, P.
Qed.
Lemma mi_mc_lower ns cs N0 d G v : 0 < N0 -> 0 <= d -> 2 * G <= d ->
  (forall a b u w, a <> b -> nth_error cs a = Some u -> nth_error cs b = Some w -> d <= Cabs (u - w)%C) ->
  (forall x, In x ns -> Cabs x <= G) -> cal_mi_mc ns cs N0 = Some v ->
  log2 (INR (length cs)) - log2 (1 + INR (length cs) * exp (- (d * (d - 2 * G)) / N0)) <= v.
Proof.
  intros HN Hd0 HG Hd Hns. unfold cal_mi_mc. destruct ns as [|n0 ns]; [discriminate|]. destruct cs as [|c0 cs]; [discriminate|]. set (al := c0 :: cs) in *. set (nn := n0 :: ns) in *.
  intros Ev. set (e := exp (- (d * (d - 2 * G)) / N0)). set (B := 1 + INR (length al) * e).
  set (tot := Rsum (map (fun si => Rsum (map (fun z => log2 (Rsum (map (fun sj => exp (- (Cabs (si - sj)%C ^ 2 + 2 * fst ((si - sj) * z)%C) / N0)) al))) nn)) al)) in Ev.
  assert (Hc : 0 <= / N0) by (left; now apply Rinv_0_lt_compat).
  assert (M0 : 0 < INR (length al)) by (apply lt_0_INR; cbn; lia). assert (L0 : 0 < INR (length nn)) by (apply lt_0_INR; cbn; lia).
  assert (T : tot <= INR (length al) * (INR (length nn) * log2 B)).
  { apply Rsum_le_const. intros si Hsi. apply Rsum_le_const. intros z Hz.
    set (f := fun sj => exp (- (Cabs (si - sj)%C ^ 2 + 2 * fst ((si - sj) * z)%C) / N0)).
    assert (F : forall q, f q = exp (- / N0 * (2 * fst (z * (si - q))%C + Cabs (si - q)%C ^ 2))).
    { intros q. unfold f. apply f_equal. replace ((si - q) * z)%C with (z * (si - q))%C by cring. unfold Rdiv. ring. }
    assert (Hself : f si = 1).
    { rewrite F. replace (si - si)%C with C0 by cring. replace (2 * fst (z * C0)%C + Cabs C0 ^ 2) with 0; [rewrite Rmult_0_r; apply exp_0|].
      assert (Z : Cabs C0 = 0) by (now apply Cabs_0). rewrite Z. unfold Cmul, C0. cbn [fst snd]. ring. }
    apply log2_le; [apply Rsum_pos; [discriminate|intros u Hu; apply in_map_iff in Hu as (w & <- & _); apply exp_pos]|].
    unfold B. rewrite <- Hself. apply (spaced_sum al d si f e); [exact Hd|exact Hsi|left; apply exp_pos|].
    intros q Hq. rewrite F. unfold e. replace (- (d * (d - 2 * G)) / N0) with (- / N0 * (d * (d - 2 * G))) by (unfold Rdiv; ring). apply noisy_term; auto. }
  assert (Ev' : v = log2 (INR (length al)) - tot / INR (length al) / INR (length nn)) by (apply (f_equal (fun o => match o with Some w => w | None => 0 end)) in Ev; symmetry; exact Ev). rewrite Ev'.
  assert (tot / INR (length al) / INR (length nn) <= log2 B); [|unfold B in *; lra].
  apply Rmult_le_reg_r with (INR (length nn)); [exact L0|]. unfold Rdiv. rewrite Rmult_assoc, Rinv_l, Rmult_1_r by lra.
  apply Rmult_le_reg_r with (INR (length al)); [exact M0|]. rewrite Rmult_assoc, Rinv_l, Rmult_1_r by lra. lra.
Qed.
Lemma cabs_scal a z : 0 <= a -> Cabs (Cscal a z) = a * Cabs z.
Proof. intros H. unfold Cabs. rewrite Cnorm2_scal, sqrt_mult; [|nra|apply Cnorm2_nonneg]. rewrite sqrt_square by lra. reflexivity. Qed.
Lemma sim_value l snr g : sample_power l <> 0 -> g <> [] -> exists v, snd (sim_mi_mc l snr g) = Some v /\ v <= ln (INR (length l)) / ln 2 /\
  forall d G, minimum_distance l d -> 0 <= d -> (forall z, In z g -> Cabs z <= G) ->
    let N0 := Rpower 10 (- snr / 10) in let d' := d / sqrt (sample_power l) in let G' := G * sqrt (N0 / 2) in 2 * G' <= d' ->
    ln (INR (length l)) / ln 2 - ln (1 + INR (length l) * exp (- (d' * (d' - 2 * G')) / N0)) / ln 2 <= v.
Proof.
  intros Hp Hg. assert (E : sample_power l = mean_power l) by (unfold sample_power, mean_power, Rmean; rewrite !map_length; reflexivity). rewrite E in *.
  pose proof (power_nonneg l) as P. assert (Q : 0 < sqrt (mean_power l)) by (apply sqrt_lt_R0; lra).
  unfold sim_mi_mc. destruct (Req_EM_T _ 0); [contradiction|]. cbn [snd].
  set (N0 := pow10 (- snr / 10)). set (cs := map (Cscal (/ sqrt (mean_power l))) l). set (ns := map (Cscal (sqrt (N0 / 2))) g).
  assert (Hl : l <> []) by (intros ->; apply Hp; unfold mean_power, Rmean; cbn; unfold Rdiv; apply Rmult_0_l).
  assert (Hv : exists v, cal_mi_mc ns cs N0 = Some v) by (unfold ns, cs; destruct g; [contradiction|]; destruct l; [contradiction|]; cbn [map cal_mi_mc]; eexists; reflexivity).
  destruct Hv as (v & Ev). assert (Lc : length cs = length l) by apply map_length. exists v. split; [exact Ev|].
  split; [rewrite <- Lc; exact (mi_mc_bound _ _ _ _ Ev)|]. cbv zeta. fold (pow10 (- snr / 10)). intros d G Hd Hd0 HG. change (Rpower 10 (- snr / 10)) with N0. set (d' := d / sqrt (mean_power l)). set (G' := G * sqrt (N0 / 2)). intros HGd. rewrite <- Lc.
  apply (mi_mc_lower ns cs N0 d' G' v); auto; [apply pow10_pos|unfold d'; apply Rmult_le_pos; [exact Hd0|left; now apply Rinv_0_lt_compat]| |].
  - intros a b u w Nab Ea Eb. unfold cs in Ea, Eb. rewrite nth_error_map in Ea, Eb.
    destruct (nth_error l a) as [u'|] eqn:Fa; [|discriminate]. destruct (nth_error l b) as [w'|] eqn:Fb; [|discriminate]. cbn [option_map] in Ea, Eb.
    assert (u = Cscal (/ sqrt (mean_power l)) u') by congruence. assert (w = Cscal (/ sqrt (mean_power l)) w') by congruence. subst u w.
    replace (Cscal (/ sqrt (mean_power l)) u' - Cscal (/ sqrt (mean_power l)) w')%C with (Cscal (/ sqrt (mean_power l)) (u' - w')%C) by (apply C_eq; unfold Cscal, Csub; cbn [fst snd]; ring).
    rewrite cabs_scal by (left; now apply Rinv_0_lt_compat). unfold d', Rdiv. rewrite Rmult_comm. apply Rmult_le_compat_l; [left; now apply Rinv_0_lt_compat|].
    destruct Hd as [Hd _]. exact (Hd a b u' w' Nab Fa Fb).
  - intros x Hx. unfold ns in Hx. apply in_map_iff in Hx as (w & <- & Hw). rewrite cabs_scal by apply sqrt_pos. unfold G'. rewrite Rmult_comm.
    apply Rmult_le_compat_r; [apply sqrt_pos|]. now apply HG.
Qed.
Lemma sim_zero l snr g : sample_power l = 0 -> sim_mi_mc l snr g = (map (fun _ => None) l, None).
Proof.
  intros H. unfold sim_mi_mc. assert (E : mean_power l = 0) by (rewrite <- H; unfold sample_power, mean_power, Rmean; rewrite !map_length; reflexivity).
  destruct (Req_EM_T _ 0); [reflexivity|contradiction].
Qed.

(** ** hybrid_qam_ber_vs_esn0 *)
Lemma hybrid_fails snr pr fr M1 M2 : hybrid_qam_ber_vs_esn0 snr pr fr M1 M2 = Err NameError.
Proof. reflexivity. Qed.
Lemma hybrid_mean ber snr pr fr M1 M2 : 1 < M1 -> 1 < M2 -> 0 <= fr <= 1 -> 0 < pr -> exists v b1 b2 s1 s2, hybrid_expr (Ok ber) snr pr fr M1 M2 = Ok v /\
  b1 = ber s1 M1 /\ b2 = ber s2 M2 /\ s2 = pr * s1 /\ (1 - fr) * s1 + fr * s2 = Rpower 10 (snr / 10) /\
  v * ((1 - fr) * (ln M1 / ln 2) + fr * (ln M2 / ln 2)) = (1 - fr) * (ln M1 / ln 2) * b1 + fr * (ln M2 / ln 2) * b2 /\ Rmin b1 b2 <= v <= Rmax b1 b2.
Proof.
  intros H1 H2 [F0 F1] Hp. set (lin := pow10 (snr / 10)). set (q := (1 - fr) + fr * pr).
  assert (Hq : 0 < q) by (unfold q; destruct (Rle_lt_or_eq_dec 0 fr F0) as [L|L]; [assert (0 < fr * pr) by (now apply Rmult_lt_0_compat); lra|subst fr; lra]).
  pose proof (log2_pos M1 H1) as P1. pose proof (log2_pos M2 H2) as P2. set (w1 := (1 - fr) * log2 M1). set (w2 := fr * log2 M2).
  assert (W1 : 0 <= w1) by (apply Rmult_le_pos; lra). assert (W2 : 0 <= w2) by (apply Rmult_le_pos; lra).
  assert (W : 0 < w1 + w2).
  { destruct (Rle_lt_or_eq_dec 0 fr F0) as [L|L]; [assert (0 < w2) by (now apply Rmult_lt_0_compat); lra|]. assert (0 < w1) by (unfold w1; rewrite <- L; lra). lra. }
  exists (1 / (w1 + w2) * (w1 * ber (lin / q) M1 + w2 * ber (pr * lin / q) M2)), (ber (lin / q) M1), (ber (pr * lin / q) M2), (lin / q), (pr * lin / q).
  split; [reflexivity|]. split; [reflexivity|]. split; [reflexivity|]. split; [unfold Rdiv; ring|]. split; [change (Rpower 10 (snr / 10)) with lin; unfold q; field; unfold q in Hq; lra|].
  set (b1 := ber (lin / q) M1). set (b2 := ber (pr * lin / q) M2). set (v := 1 / (w1 + w2) * (w1 * b1 + w2 * b2)).
  assert (V : v * (w1 + w2) = w1 * b1 + w2 * b2) by (unfold v; field; lra). split; [exact V|].
  pose proof (Rmin_l b1 b2). pose proof (Rmin_r b1 b2). pose proof (Rmax_l b1 b2). pose proof (Rmax_r b1 b2).
  split; apply Rmult_le_reg_r with (w1 + w2); try exact W; rewrite V.
  - assert (w1 * Rmin b1 b2 <= w1 * b1) by (apply Rmult_le_compat_l; lra). assert (w2 * Rmin b1 b2 <= w2 * b2) by (apply Rmult_le_compat_l; lra). lra.
  - assert (w1 * b1 <= w1 * Rmax b1 b2) by (apply Rmult_le_compat_l; lra). assert (w2 * b2 <= w2 * Rmax b1 b2) by (apply Rmult_le_compat_l; lra). lra.
Qed.

(** ** corr_foe *)
Lemma corr_foe_rot rows os l add : (length rows <= length l)%nat -> exists out, corr_foe rows os (FoeArr l) add = (Ok out, ZeroFoe) /\
  rotated_by (fun _ n => - (2 * PI * INR (n + 1) * (Rsum l / INR (length l) + add) / os)) rows out.
Proof.
  intros H. unfold corr_foe. set (m := Rsum l / INR (length l) + add). destruct (comp_freq_rot rows (map (fun _ => m) l) os) as (out & E & L & R); [now rewrite map_length|].
  exists out. rewrite E. split; [reflexivity|]. split; [exact L|]. intros k row Ek. destruct (R k row Ek) as (row' & E' & L' & R'). exists row'. split; [exact E'|]. split; [exact L'|].
  intros n s En. rewrite (R' n s En). assert (K : nth k (map (fun _ => m) l) 0 = m).
  { apply nth_error_nth. assert (Hk : (k < length l)%nat) by (assert (k < length rows)%nat by (apply nth_error_Some; congruence); lia).
    destruct (nth_error l k) as [x|] eqn:Ex; [|apply nth_error_None in Ex; lia]. now rewrite nth_error_map, Ex. }
  rewrite K. reflexivity.
Qed.
Lemma map_const_repeat {A B} (c : B) (l : list A) : map (fun _ => c) l = repeat c (length l).
Proof. induction l as [|a l IH]; [reflexivity|]. cbn. now rewrite IH. Qed.
Lemma corr_foe_carrier sig fo fs os l add : os <> 0 -> fs <> 0 -> length l = length sig -> Rsum l / INR (length l) + add = fo * os / fs ->
  exists out, corr_foe (add_carrier_offset sig fo fs) os (FoeArr l) add = (Ok out, ZeroFoe) /\ rotated_by (fun _ _ => - (2 * PI * fo / fs)) sig out.
Proof.
  intros Ho Hf Hl E. unfold corr_foe. rewrite E, map_const_repeat, Hl. destruct (offset_comp sig fo fs os Ho Hf) as (out & E' & R). exists out. rewrite E'. split; [reflexivity|exact R].
Qed.
Lemma corr_foe_opposite a b os f : os <> 0 -> corr_foe [a; b] os (FoeArr [f; - f]) 0 = (Ok [a; b], ZeroFoe).
Proof.
  intros Ho. destruct (corr_foe_rot [a; b] os [f; - f] 0 (le_n _)) as (out & E & L & R). rewrite E. cbn in L. destruct out as [|a' [|b' [|? ?]]]; try discriminate.
  assert (Z : forall n, - (2 * PI * INR (n + 1) * (Rsum [f; - f] / INR (length [f; - f]) + 0) / os) = 0).
  { intros n. rewrite !Rsum_cons. change (Rsum []) with 0. replace ((f + (- f + 0)) / INR (length [f; - f]) + 0) with 0 by (unfold Rdiv; ring). unfold Rdiv. ring. }
  assert (G : forall x x' : list C, length x' = length x -> (forall n s, nth_error x n = Some s -> nth_error x' n = Some (s * Cexpi 0)%C) -> x' = x).
  { intros x x' Lx Hx. apply nth_error_ext_lt; [exact Lx|]. intros n Hn. destruct (nth_error x n) as [s|] eqn:Es; [|apply nth_error_None in Es; lia].
    rewrite (Hx n s Es). apply (f_equal Some). unfold Cexpi. rewrite cos_0, sin_0. apply C_eq; unfold Cmul; cbn [fst snd]; ring. }
  assert (a' = a) as ->.
  { destruct (R 0%nat a eq_refl) as (r' & Er & Lr & Hr). assert (r' = a') by (cbn in Er; congruence). subst r'. apply G; [exact Lr|]. intros n s En. rewrite (Hr n s En), Z. reflexivity. }
  assert (b' = b) as ->.
  { destruct (R 1%nat b eq_refl) as (r' & Er & Lr & Hr). assert (r' = b') by (cbn in Er; congruence). subst r'. apply G; [exact Lr|]. intros n s En. rewrite (Hr n s En), Z. reflexivity. }
  reflexivity.
Qed.
Lemma corr_foe_twice rows rows' os f add add' : fst (corr_foe rows' os (snd (corr_foe rows os f add)) add') = Err AttributeError.
Proof. destruct f; reflexivity. Qed.
Lemma sim_array_power l snr g : sample_power l <> 0 ->
  exists a, 0 < a /\ fst (sim_mi_mc l snr g) = map Some (map (Cscal a) l) /\ sample_power (map (Cscal a) l) = 1.
Proof.
  intros H. apply sim_array. intros E. apply H. rewrite <- E. unfold sample_power, mean_power, Rmean. rewrite !map_length. reflexivity.
Qed.
Lemma sim_ex : sample_power [(2, 0); (-2, 0)] = 4 /\ minimum_distance [(2, 0); (-2, 0)] 4.
Proof.
  assert (D : forall a b, a * a = 16 -> b = 0 -> Cabs (a, b) = 4).
  { intros a b Ha ->. unfold Cabs, Cnorm2. cbn [fst snd]. replace (a * a + 0 * 0) with (4 * 4) by lra. apply sqrt_square. lra. }
  split.
  - unfold sample_power. cbn [map length]. rewrite !Rsum_cons. change (Rsum []) with 0. unfold Cnorm2. cbn [fst snd INR]. lra.
  - split.
    + intros [|[|a]] [|[|b]] p q Hn Ep Eq; try contradiction; cbn in Ep, Eq; try (destruct a; discriminate); try (destruct b; discriminate);
        assert (p = p) by reflexivity; injection Ep as <-; injection Eq as <-; right; symmetry; unfold Csub; cbn [fst snd]; apply D; lra.
    + exists 0%nat, 1%nat, (2, 0), (-2, 0). repeat split; try discriminate. unfold Csub; cbn [fst snd]; apply D; lra.
Qed.
Lemma gmi_ex : exists mp d, qam_mapping 4 = Ok mp /\ minimum_distance (coded_symbols mp) d /\ 0 <= d.
Proof.
  destruct (qam_mapping_ok 4 ltac:(lia)) as (mp & E & _). exists mp, (2 / sqrt (cal_scaling_factor_qam 4)). split; [exact E|].
  pose proof (qam_mindist 4 ltac:(lia) mp E) as H. split; [exact H|]. destruct H as (_ & a & b & p & q & _ & _ & _ & <-). apply Cabs_nonneg.
Qed.
Lemma hybrid_ex : exists v, hybrid_expr (Ok (fun s _ => / s)) 0 1 (1 / 2) 4 4 = Ok v /\ v = 1.
Proof.
  eexists. split; [reflexivity|]. unfold pow10. replace (0 / 10 * ln 10) with 0 by lra. rewrite exp_0.
  pose proof (log2_pos 4 ltac:(lra)) as H. field. lra.
Qed.
