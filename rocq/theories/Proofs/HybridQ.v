(** Time-domain hybrid signals: power ratio of two QAM alphabets. *)
From Coq Require Import String List ZArith QArith Qabs Reals Bool Arith Lia Lra Psatz Permutation Sorted ZifyBool ZifyNat ZifyN.
From Verif Require Import Common.Py Common.ListX Common.Cplx Common.SumX Model.Gray Model.Constellation Model.Decision Model.Hybrid Spec.Geometry
  Proofs.GrayP Proofs.ConstP Proofs.DecisionP Proofs.MapP Proofs.QamP Proofs.C01P.
Import ListNotations.
Local Open Scope R_scope.

Definition clt (a b : C) : Prop := fst a < fst b \/ (fst a = fst b /\ snd a < snd b).
Lemma Clex_iff a b : Clex a b = true <-> clt a b.
Proof.
  unfold Clex, clt. destruct (Rlt_dec (fst a) (fst b)) as [H|H]; [tauto|]. destruct (Req_EM_T (fst a) (fst b)) as [E|E].
  - destruct (Rlt_dec (snd a) (snd b)); intuition (try lra; try discriminate).
  - split; [discriminate|]. intuition lra.
Qed.
Lemma clt_trans a b c : clt a b -> clt b c -> clt a c.
Proof. unfold clt. intros [H|[H H']] [G|[G G']]; try (left; lra). right. lra. Qed.
Lemma clt_irrefl a : ~ clt a a.
Proof. unfold clt. lra. Qed.
Lemma clt_total a b : a <> b -> ~ clt a b -> clt b a.
Proof.
  unfold clt. intros Hne H. destruct (Rtotal_order (fst a) (fst b)) as [L|[L|L]]; [tauto| |tauto].
  destruct (Rtotal_order (snd a) (snd b)) as [M|[M|M]]; [tauto| |right; lra]. exfalso. apply Hne. destruct a, b. cbn in *. congruence.
Qed.

Lemma insert_in x l y : In y (insert x l) <-> y = x \/ In y l.
Proof.
  induction l as [|z l IH]; cbn; [intuition congruence|]. destruct (Clex x z); cbn; [intuition congruence|]. rewrite IH. tauto.
Qed.
Lemma insert_sorted x l : ~ In x l -> StronglySorted clt l -> StronglySorted clt (insert x l).
Proof.
  induction l as [|z l IH]; intros Hn Hs; cbn; [repeat constructor|]. inversion Hs as [|? ? Hl Hz]; subst. destruct (Clex x z) eqn:E.
  - apply Clex_iff in E. constructor; [assumption|]. constructor; [assumption|]. rewrite Forall_forall in *. intros w Hw. eapply clt_trans; eauto.
  - assert (Hzx : clt z x). { apply clt_total; [intros ->; apply Hn; now left|]. rewrite <- Clex_iff. congruence. }
    constructor; [apply IH; [intros H; apply Hn; now right|assumption]|]. rewrite Forall_forall in *. intros w Hw. apply insert_in in Hw as [->|Hw]; auto.
Qed.
Lemma unique_in l y : In y (np_unique l) <-> In y l.
Proof.
  unfold np_unique. rewrite <- (nodup_In Ceq_dec l y). generalize (nodup Ceq_dec l). intros u. induction u as [|x u IH]; cbn; [tauto|]. rewrite insert_in, IH. intuition congruence.
Qed.
Lemma unique_sorted l : StronglySorted clt (np_unique l).
Proof.
  unfold np_unique. pose proof (NoDup_nodup Ceq_dec l) as Hn. induction (nodup Ceq_dec l) as [|x u IH]; cbn; [constructor|].
  inversion Hn; subst. apply insert_sorted; [|auto]. intros H. apply H1.
  assert (G : forall v, In x (fold_right insert [] v) -> In x v); [|auto]. induction v as [|w v IHv]; cbn; [tauto|]. rewrite insert_in. intuition congruence.
Qed.

Lemma abs_diff_in l d : StronglySorted clt l -> In d (abs_diff l) -> exists x y, In x l /\ In y l /\ clt x y /\ d = Cabs (y - x)%C.
Proof.
  induction l as [|x l IH]; [intros _ []|]. intros Hs H. inversion Hs as [|? ? Hl Hx]; subst. destruct l as [|y l]; [destruct H|].
  destruct H as [<-|H].
  - exists x, y. split; [now left|]. split; [right; now left|]. split; [|reflexivity]. inversion Hx; assumption.
  - destruct (IH Hl H) as (a & b & Ha & Hb & Hab & E). exists a, b. intuition.
Qed.
Lemma abs_diff_adjacent l a b : StronglySorted clt l -> In a l -> In b l -> clt a b -> (forall c, In c l -> clt a c -> clt c b -> False) ->
  In (Cabs (b - a)%C) (abs_diff l).
Proof.
  induction l as [|x l IH]; [intros _ []|]. intros Hs Ha Hb Hab Hno. inversion Hs as [|? ? Hl Hx]; subst. rewrite Forall_forall in Hx.
  destruct l as [|y l].
  - destruct Ha as [->|[]], Hb as [->|[]]. destruct (clt_irrefl _ Hab).
  - destruct (Ceq_dec x a) as [->|Hxa].
    + left. assert (Hin : In b (y :: l)) by (destruct Hb as [->|Hb]; [destruct (clt_irrefl _ Hab)|assumption]).
      destruct (Ceq_dec y b) as [->|Hyb]; [reflexivity|exfalso]. apply (Hno y); [right; now left|apply Hx; now left|].
      inversion Hl as [|? ? _ Hy]; subst. rewrite Forall_forall in Hy. destruct Hin as [->|Hin]; [congruence|auto].
    + right. apply IH; try assumption; [destruct Ha; [congruence|assumption]| |intros c Hc; apply Hno; now right].
      destruct Hb as [->|Hb]; [exfalso|assumption]. destruct Ha as [->|Ha]; [congruence|]. apply (clt_irrefl a). eapply clt_trans; [exact Hab|now apply Hx].
Qed.

Lemma np_min_spec l d : In d l -> (forall e, In e l -> d <= e) -> np_min l = Ok d.
Proof.
  destruct l as [|x l]; [intros []|]. intros Hin Hle. cbn [np_min]. f_equal.
  assert (G : forall l x, (In d l \/ d = x) -> d <= x -> (forall e, In e l -> d <= e) -> fold_left Rmin l x = d).
  { clear. induction l as [|y l IH]; intros x Hin Hx Hle; cbn [fold_left]; [destruct Hin as [[]|Hin]; now symmetry|].
    assert (Hy : d <= y) by (apply Hle; now left). apply IH.
    - destruct Hin as [[->|Hin]| ->]; [right| left; assumption|right]; unfold Rmin; destruct (Rle_dec _ _); lra.
    - now apply Rmin_glb.
    - intros e He. apply Hle. now right. }
  apply G; [destruct Hin; auto|apply Hle; now left|intros e He; apply Hle; now right].
Qed.

(** the smallest consecutive distance of a sorted alphabet *)
Lemma min_step l d a b : (forall x y, In x l -> In y l -> x <> y -> d <= Cabs (x - y)%C) ->
  In a l -> In b l -> clt a b -> (forall c, In c l -> clt a c -> clt c b -> False) -> Cabs (b - a)%C = d ->
  np_min (abs_diff (np_unique l)) = Ok d.
Proof.
  intros Hd Ha Hb Hab Hno E. apply np_min_spec.
  - rewrite <- E. apply abs_diff_adjacent; [apply unique_sorted|now apply unique_in|now apply unique_in|assumption|]. intros c Hc. exact (Hno c (proj1 (unique_in l c) Hc)).
  - intros e He. apply abs_diff_in in He as (x & y & Hx & Hy & Hxy & ->); [|apply unique_sorted]. apply Hd; try (now apply unique_in).
    intros ->. exact (clt_irrefl _ Hxy).
Qed.

Lemma adjacent_column k : (2 <= k)%nat -> In (1, -1)%Z (cal_symbols_qam k) /\ In (1, 1)%Z (cal_symbols_qam k).
Proof.
  intros Hk. unfold cal_symbols_qam. destruct (Nat.odd k) eqn:E.
  - apply Nat.odd_spec in E as (m & E). replace ((k - 1) / 2)%nat with m by (apply (Nat.div_unique _ _ _ 0); lia).
    assert (Hpos : (2 <= 2 ^ Z.of_nat m)%Z). { replace 2%Z with (2 ^ 1)%Z at 1 by reflexivity. apply Z.pow_le_mono_r; lia. }
    destruct (Nat.lt_ge_cases m 2) as [H|H].
    + rewrite !(cross_qam_in_small _ _ H). unfold rect_point; cbn [fst snd]. rewrite pow2_succ_Z.
      destruct m as [|[|?]]; [lia| |lia]. repeat split; try lia; try (exists 0%Z; lia); try (exists (-1)%Z; lia); cbn; lia.
    + rewrite !(cross_qam_in _ _ H). unfold cross_point; cbn [fst snd]. repeat split; try lia; try (exists 0%Z; lia); try (exists (-1)%Z; lia).
  - assert (Ev : Nat.even k = true) by (rewrite even_odd_false, E; reflexivity). pose proof (even_half k Ev).
    assert (Hh : (0 < k / 2)%nat) by lia. rewrite !square_qam_in by assumption.
    assert (Hpos : (2 <= 2 ^ Z.of_nat (k / 2))%Z). { replace 2%Z with (2 ^ 1)%Z at 1 by reflexivity. apply Z.pow_le_mono_r; lia. }
    unfold square_point; cbn [fst snd]. repeat split; try lia; try (exists 0%Z; lia); try (exists (-1)%Z; lia).
Qed.

Lemma scaled_lt r z w : 0 < r -> clt (scaled r z) (scaled r w) <-> (fst z < fst w \/ fst z = fst w /\ snd z < snd w)%Z.
Proof.
  intros Hr. assert (Hi : 0 < / r) by (now apply Rinv_0_lt_compat). unfold clt, scaled, Cscal, ZtoC. cbn [fst snd].
  assert (L : forall a b, / r * IZR a < / r * IZR b <-> (a < b)%Z).
  { intros a b. split; intros H; [apply lt_IZR; now apply Rmult_lt_reg_l in H|]. apply Rmult_lt_compat_l; [assumption|now apply IZR_lt]. }
  assert (E : forall a b, / r * IZR a = / r * IZR b <-> (a = b)%Z).
  { intros a b. split; intros H; [apply eq_IZR; apply Rmult_eq_reg_l in H; lra|now rewrite H]. }
  rewrite !L, E. reflexivity.
Qed.

Lemma qam_step k mp : (1 <= k)%nat -> qam_mapping k = Ok mp ->
  np_min (abs_diff (np_unique (coded_symbols mp))) = Ok (2 / sqrt (cal_scaling_factor_qam k)).
Proof.
  intros Hk Hmp. set (r := sqrt (cal_scaling_factor_qam k)). assert (Hr : 0 < r) by (now apply r_pos).
  destruct (qam_mapping_ok k Hk) as (mp' & Hmp' & Hok). assert (mp' = mp) by congruence. subst mp'. destruct Hok as (HP & _). fold r in HP.
  assert (Hin : forall s, In s (coded_symbols mp) <-> exists z, In z (cal_symbols_qam k) /\ s = scaled r z).
  { intros s. split; intros H.
    - apply (Permutation_in _ HP), in_map_iff in H as (z & <- & Hz). eauto.
    - destruct H as (z & Hz & ->). apply (Permutation_in _ (Permutation_sym HP)). now apply in_map. }
  assert (Hd : forall x y, In x (coded_symbols mp) -> In y (coded_symbols mp) -> x <> y -> 2 / r <= Cabs (x - y)%C).
  { intros x y Hx Hy Hne. destruct (qam_mindist k Hk mp Hmp) as (H & _). apply In_nth_error in Hx as (i & Hi). apply In_nth_error in Hy as (j & Hj).
    apply (H i j); try assumption. intros ->. congruence. }
  assert (Hw : forall z w, dist2Z w z = 4%Z -> Cabs (scaled r w - scaled r z)%C = 2 / r).
  { intros z w E. rewrite scaled_dist, E by assumption. replace 4 with (2 * 2) by lra. rewrite sqrt_square by lra. unfold Rdiv. ring. }
  destruct (Nat.eq_dec k 1) as [->|Hk1].
  - destruct (symbols_adjacent 1 Hk) as (y & Hy1 & Hy2).
    apply (min_step _ _ (scaled r (-1, y)%Z) (scaled r (1, y)%Z) Hd).
    + apply Hin. eauto.
    + apply Hin. eauto.
    + apply scaled_lt; [assumption|]. cbn; lia.
    + intros c Hc H1 H2. apply Hin in Hc as (z & Hz & ->). apply scaled_lt in H1; [|assumption]. apply scaled_lt in H2; [|assumption].
      assert (Hz' : z = (-1, 0)%Z \/ z = (1, 0)%Z) by (vm_compute in Hz; intuition).
      assert (Hy' : y = 0%Z) by (vm_compute in Hy1; intuition congruence). subst y. destruct Hz' as [->| ->]; cbn in *; lia.
    + apply Hw. unfold dist2Z. cbn [fst snd]. lia.
  - destruct (adjacent_column k ltac:(lia)) as (Hy1 & Hy2).
    apply (min_step _ _ (scaled r (1, -1)%Z) (scaled r (1, 1)%Z) Hd).
    + apply Hin. eauto.
    + apply Hin. eauto.
    + apply scaled_lt; [assumption|]. cbn; lia.
    + intros c Hc H1 H2. apply Hin in Hc as (z & Hz & ->). apply scaled_lt in H1; [|assumption]. apply scaled_lt in H2; [|assumption]. cbn [fst snd] in *.
      pose proof (symbols_snd_parity k z (1, 1)%Z Hk Hz Hy2) as Hp. cbn [fst snd] in Hp. lia.
    + apply Hw. unfold dist2Z. cbn [fst snd]. lia.
Qed.

Lemma ratio_qam k1 k2 mp1 mp2 : (1 <= k1)%nat -> (1 <= k2)%nat -> qam_mapping k1 = Ok mp1 -> qam_mapping k2 = Ok mp2 ->
  calculate_power_ratio (coded_symbols mp1) (coded_symbols mp2) "dist" =
  Ok (((2 / sqrt (cal_scaling_factor_qam k2)) / (2 / sqrt (cal_scaling_factor_qam k1))) ^ 2).
Proof. intros H1 H2 E1 E2. unfold calculate_power_ratio. cbn [String.eqb]. rewrite (qam_step k1), (qam_step k2) by assumption. reflexivity. Qed.

Lemma mindist_unique l d d' : minimum_distance l d -> minimum_distance l d' -> d = d'.
Proof.
  intros (H & a & b & p & q & Hab & Hp & Hq & E) (H' & a' & b' & p' & q' & Hab' & Hp' & Hq' & E').
  pose proof (H a' b' p' q' Hab' Hp' Hq'). pose proof (H' a b p q Hab Hp Hq). lra.
Qed.

Lemma mindist_scaled l d c : 0 < c -> minimum_distance l d -> minimum_distance (map (Cscal c) l) (c * d).
Proof.
  intros Hc (H & a & b & p & q & Hab & Hp & Hq & E).
  assert (S : forall x y, Cabs (Cscal c x - Cscal c y)%C = c * Cabs (x - y)%C).
  { intros x y. unfold Cabs. replace (Cnorm2 (Cscal c x - Cscal c y)%C) with ((c * c) * Cnorm2 (x - y)%C) by (unfold Cnorm2, Cscal, Csub; cbn [fst snd]; ring).
    rewrite sqrt_mult; [now rewrite sqrt_square by lra|nra|apply Cnorm2_nonneg]. }
  split.
  - intros i j x y Hij Hx Hy. rewrite nth_error_map in Hx, Hy. destruct (nth_error l i) as [u|] eqn:Eu; [|discriminate]. destruct (nth_error l j) as [v|] eqn:Ev; [|discriminate].
    injection Hx as <-. injection Hy as <-. rewrite S. apply Rmult_le_compat_l; [lra|]. eapply H; eauto.
  - exists a, b, (Cscal c p), (Cscal c q). rewrite !nth_error_map, Hp, Hq. repeat (split; [assumption || reflexivity|]). now rewrite S, E.
Qed.

Lemma ratio_equal_distance k1 k2 mp1 mp2 d1 d2 : (1 <= k1)%nat -> (1 <= k2)%nat -> qam_mapping k1 = Ok mp1 -> qam_mapping k2 = Ok mp2 ->
  minimum_distance (coded_symbols mp1) d1 -> minimum_distance (coded_symbols mp2) d2 ->
  exists s, calculate_power_ratio (coded_symbols mp1) (coded_symbols mp2) "dist" = Ok s /\ s = (d2 / d1) ^ 2 /\ 0 < s /\
    minimum_distance (map (Cscal (/ sqrt s)) (coded_symbols mp2)) d1.
Proof.
  intros H1 H2 E1 E2 M1 M2. set (r1 := sqrt (cal_scaling_factor_qam k1)). set (r2 := sqrt (cal_scaling_factor_qam k2)).
  assert (Hr1 : 0 < r1) by (now apply r_pos). assert (Hr2 : 0 < r2) by (now apply r_pos).
  assert (D1 : d1 = 2 / r1) by (eapply mindist_unique; [exact M1|now apply qam_mindist]).
  assert (D2 : d2 = 2 / r2) by (eapply mindist_unique; [exact M2|now apply qam_mindist]).
  assert (P1 : 0 < d1) by (rewrite D1; apply Rdiv_lt_0_compat; lra). assert (P2 : 0 < d2) by (rewrite D2; apply Rdiv_lt_0_compat; lra).
  exists ((d2 / d1) ^ 2). assert (Pq : 0 < d2 / d1) by (now apply Rdiv_lt_0_compat). split; [rewrite (ratio_qam k1 k2) by assumption; fold r1 r2; now rewrite D1, D2|].
  split; [reflexivity|]. split; [apply pow_lt; assumption|]. replace (sqrt ((d2 / d1) ^ 2)) with (d2 / d1).
  - replace d1 with (/ (d2 / d1) * d2) at 2 by (field; lra). apply mindist_scaled; [now apply Rinv_0_lt_compat|assumption].
  - rewrite <- Rsqr_pow2, sqrt_Rsqr; lra.
Qed.

