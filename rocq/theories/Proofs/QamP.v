(** Normalised QAM alphabets: power, mean, minimum distance, neighbours. *)
From Coq Require Import List ZArith NArith Bool Lia Permutation FinFun ZifyBool ZifyNat ZifyN Reals Lra Psatz Arith.
From Verif Require Import Common.Py Common.ListX Common.Cplx Model.Gray Model.Constellation Model.Decision
  Spec.Bits Spec.Geometry Proofs.GrayP Proofs.ConstP Proofs.DecisionP Proofs.MapP.
Import ListNotations.
Ltac Zify.zify_post_hook ::= Z.div_mod_to_equations.

(** ** sums over grids and permutations *)
Lemma Rsum_perm l l' : Permutation l l' -> Rsum l = Rsum l'.
Proof. induction 1; rewrite ?Rsum_cons in *; lra. Qed.

Lemma Rsum_grid {A} m n (f : nat -> nat -> A) (g : A -> R) :
  Rsum (map g (grid m n f)) = Rsum (map (fun i => Rsum (map (fun j => g (f i j)) (seq 0 n))) (seq 0 m)).
Proof.
  unfold grid. generalize (seq 0 m) as l. induction l as [|i l IH]; [reflexivity|].
  cbn [flat_map map]. rewrite map_app, Rsum_app, Rsum_cons, IH, map_map; reflexivity.
Qed.

Local Open Scope R_scope.
Lemma Rsum_map_seq_S (f : nat -> R) m : Rsum (map f (seq 0 (S m))) = Rsum (map f (seq 0 m)) + f m.
Proof. rewrite seq_S, map_app, Rsum_app; cbn [map]. unfold Rsum at 2; cbn; lra. Qed.

Lemma pam_R n i : IZR (pam_level n i) = 2 * INR i - (INR n - 1).
Proof.
  unfold pam_level. rewrite minus_IZR, mult_IZR, minus_IZR, <- !INR_IZR_INZ. reflexivity.
Qed.

Lemma sum_sq (c : R) m :
  Rsum (map (fun i => (2 * INR i - c) ^ 2) (seq 0 m))
  = INR m * (4 * INR m * INR m / 3 - 2 * INR m + 2 / 3 - 2 * c * (INR m - 1) + c * c).
Proof.
  induction m as [|m IH]; [cbn; unfold Rsum; cbn; lra|].
  rewrite Rsum_map_seq_S, IH, S_INR. field.
Qed.

Lemma pam_power n : Rsum (map (fun i => IZR (pam_level n i) ^ 2) (seq 0 n)) = INR n * (INR n * INR n - 1) / 3.
Proof.
  rewrite (map_ext _ (fun i => (2 * INR i - (INR n - 1)) ^ 2)) by (intros; rewrite pam_R; reflexivity).
  rewrite sum_sq. field.
Qed.

Lemma Cabs_pow2 z : Cabs z ^ 2 = Cnorm2 z.
Proof. rewrite <- Cabs_sqr; ring. Qed.

Lemma Cnorm2_ZtoC z : Cnorm2 (ZtoC z) = IZR (fst z) ^ 2 + IZR (snd z) ^ 2.
Proof. unfold Cnorm2, ZtoC; cbn [fst snd]; ring. Qed.

Lemma square_power h :
  Rsum (map (fun z => Cabs (ZtoC z) ^ 2) (square_qam h))
  = INR (2 ^ h) * INR (2 ^ h) * (2 / 3 * (INR (2 ^ h) * INR (2 ^ h) - 1)).
Proof.
  unfold square_qam. set (n := (2 ^ h)%nat). rewrite Rsum_grid.
  rewrite (map_ext _ (fun i => INR n * IZR (pam_level n i) ^ 2 + INR n * (INR n * INR n - 1) / 3)).
  - rewrite Rsum_map_add, Rsum_map_scal, Rsum_map_const, pam_power, seq_length. field.
  - intros i. rewrite (map_ext _ (fun j => IZR (pam_level n i) ^ 2 + IZR (pam_level n j) ^ 2)).
    + rewrite Rsum_map_add, Rsum_map_const, pam_power, seq_length. reflexivity.
    + intros j. rewrite Cabs_pow2, Cnorm2_ZtoC; reflexivity.
Qed.

Lemma INR_pow2_pos k : 0 < INR (2 ^ k).
Proof. apply lt_0_INR, pow2_pos. Qed.

Lemma scaling_is_mean k : cal_scaling_factor_qam k = Rmean (map (fun z => Cabs (ZtoC z) ^ 2) (cal_symbols_qam k)).
Proof.
  unfold cal_scaling_factor_qam. destruct (Nat.even k) eqn:E; [|reflexivity].
  unfold Rmean, cal_symbols_qam. rewrite map_length. unfold Nat.odd; rewrite E; cbn [negb].
  rewrite square_qam_length, <- (even_half k E), square_power.
  assert (Ek : INR (2 ^ k) = INR (2 ^ (k / 2)) * INR (2 ^ (k / 2))).
  { rewrite <- mult_INR, <- Nat.pow_add_r. do 2 f_equal. pose proof (even_half k E); lia. }
  rewrite Ek. pose proof (INR_pow2_pos (k / 2)). field. lra.
Qed.

Lemma symbols_first_odd k z : (1 <= k)%nat -> In z (cal_symbols_qam k) -> Z.Odd (fst z).
Proof.
  intros Hk; unfold cal_symbols_qam. destruct (Nat.odd k) eqn:E.
  - destruct (Nat.lt_ge_cases ((k - 1) / 2) 2) as [H|H].
    + intros Hz; apply (cross_qam_in_small _ _ H) in Hz; apply Hz.
    + intros Hz; apply (cross_qam_in _ _ H) in Hz; apply Hz.
  - assert (Ev : Nat.even k = true) by (rewrite even_odd_false, E; reflexivity).
    pose proof (even_half k Ev). intros Hz; apply square_qam_in in Hz; [apply Hz|lia].
Qed.

(** parity of the imaginary part is the same for all points *)
Lemma symbols_snd_parity k z w : (1 <= k)%nat -> In z (cal_symbols_qam k) -> In w (cal_symbols_qam k) ->
  (snd z mod 2 = snd w mod 2)%Z.
Proof.
  intros Hk; unfold cal_symbols_qam. destruct (Nat.odd k) eqn:E.
  - destruct (Nat.lt_ge_cases ((k - 1) / 2) 2) as [H|H].
    + intros Hz Hw; apply (cross_qam_in_small _ _ H) in Hz, Hw.
      destruct Hz as [_ [Hz _]], Hw as [_ [Hw _]]. destruct ((k - 1) / 2)%nat; [rewrite Hz, Hw; reflexivity|].
      apply Odd_mod in Hz, Hw; congruence.
    + intros Hz Hw; apply (cross_qam_in _ _ H) in Hz, Hw.
      destruct Hz as [_ [Hz _]], Hw as [_ [Hw _]]. apply Odd_mod in Hz, Hw; congruence.
  - assert (Nat.even k = true) by (rewrite even_odd_false, E; reflexivity).
    pose proof (even_half k H).
    intros Hz Hw; apply square_qam_in in Hz, Hw; try lia.
    destruct Hz as [_ [Hz _]], Hw as [_ [Hw _]]. apply Odd_mod in Hz, Hw; congruence.
Qed.

Lemma sq_ge4 x y : (2 <= x \/ x <= -2)%Z -> (4 <= x * x + y * y)%Z.
Proof. intros H. assert (4 <= x * x)%Z by (destruct H; nia). assert (0 <= y * y)%Z by apply Z.square_nonneg. lia. Qed.

Lemma symbols_mindist k z w : (1 <= k)%nat -> In z (cal_symbols_qam k) -> In w (cal_symbols_qam k) ->
  z <> w -> (4 <= dist2Z z w)%Z.
Proof.
  intros Hk Hz Hw Hne.
  pose proof (symbols_snd_parity k z w Hk Hz Hw) as Hp.
  apply symbols_first_odd in Hz, Hw; try assumption. apply Odd_mod in Hz, Hw.
  destruct z as [a b], w as [c d]; unfold dist2Z; cbn [fst snd] in *.
  assert (Hd : (a - c <> 0 \/ b - d <> 0)%Z).
  { destruct (Z.eq_dec a c) as [->|], (Z.eq_dec b d) as [->|]; try congruence; lia. }
  destruct Hd as [Hd|Hd].
  - apply sq_ge4; lia.
  - rewrite Z.add_comm; apply sq_ge4; lia.
Qed.

(** two points at distance 2 *)
Lemma symbols_adjacent k : (1 <= k)%nat -> exists y, In (1, y)%Z (cal_symbols_qam k) /\ In (-1, y)%Z (cal_symbols_qam k).
Proof.
  intros Hk; unfold cal_symbols_qam. destruct (Nat.odd k) eqn:E.
  - set (n := ((k - 1) / 2)%nat).
    assert (Hpos : (1 <= 2 ^ Z.of_nat n)%Z) by (pose proof (Z.pow_pos_nonneg 2 (Z.of_nat n)); lia).
    destruct (Nat.lt_ge_cases n 2) as [H|H].
    + exists (if n then 0 else 1)%Z. rewrite !(cross_qam_in_small _ _ H). unfold rect_point; cbn [fst snd].
      rewrite pow2_succ_Z. destruct n as [|[|?]]; [| |lia]; repeat split; try lia; try (exists 0%Z; lia); try (exists (-1)%Z; lia); cbn; lia.
    + exists 1%Z. rewrite !(cross_qam_in _ _ H). unfold cross_point; cbn [fst snd].
      repeat split; try lia; try (exists 0%Z; lia); try (exists (-1)%Z; lia).
  - assert (Ev : Nat.even k = true) by (rewrite even_odd_false, E; reflexivity).
    pose proof (even_half k Ev).
    assert (Hh : (0 < k / 2)%nat) by lia. exists 1%Z. rewrite !square_qam_in by assumption.
    assert (Hpos : (2 <= 2 ^ Z.of_nat (k / 2))%Z).
    { replace 2%Z with (2 ^ 1)%Z at 1 by reflexivity. apply Z.pow_le_mono_r; lia. }
    unfold square_point; cbn [fst snd]. repeat split; try lia; try (exists 0%Z; lia); try (exists (-1)%Z; lia).
Qed.

Lemma symbols_neg k z : (1 <= k)%nat -> In z (cal_symbols_qam k) -> In (- fst z, - snd z)%Z (cal_symbols_qam k).
Proof.
  intros Hk; unfold cal_symbols_qam. destruct (Nat.odd k) eqn:E.
  - destruct (Nat.lt_ge_cases ((k - 1) / 2) 2) as [H|H].
    + rewrite !(cross_qam_in_small _ _ H). unfold rect_point; cbn [fst snd]. rewrite !Z.abs_opp.
      destruct ((k - 1) / 2)%nat; rewrite !Odd_mod; intros [? [? [? ?]]]; repeat split; try assumption; lia.
    + rewrite !(cross_qam_in _ _ H). unfold cross_point; cbn [fst snd]. rewrite !Z.abs_opp, !Odd_mod.
      intros [? [? [? [? ?]]]]; repeat split; try assumption; lia.
  - assert (Ev : Nat.even k = true) by (rewrite even_odd_false, E; reflexivity).
    pose proof (even_half k Ev). rewrite !square_qam_in by lia. unfold square_point; cbn [fst snd]. rewrite !Z.abs_opp, !Odd_mod.
    intros [? [? [? ?]]]; repeat split; try assumption; lia.
Qed.

Lemma scale_pos k : (1 <= k)%nat -> 0 < cal_scaling_factor_qam k.
Proof.
  intros Hk; rewrite scaling_is_mean. unfold Rmean. rewrite map_length, cal_symbols_qam_length.
  apply Rdiv_lt_0_compat; [|apply INR_pow2_pos].
  set (l := map _ _). assert (Hn : forall x, In x l -> 0 <= x).
  { intros x Hx; apply in_map_iff in Hx; destruct Hx as [z [<- _]]. rewrite Cabs_pow2; apply Cnorm2_nonneg. }
  destruct (Rle_lt_or_eq_dec 0 (Rsum l) (Rsum_nonneg l Hn)) as [H|H]; [assumption|exfalso].
  destruct (symbols_adjacent k Hk) as [y [Hy _]].
  assert (Hin : In (Cabs (ZtoC (1, y)%Z) ^ 2) l) by (unfold l; apply (in_map (fun z => Cabs (ZtoC z) ^ 2) _ _ Hy)).
  apply (Rsum_zero_nonneg l Hn (eq_sym H)) in Hin. rewrite Cabs_pow2, Cnorm2_ZtoC in Hin; cbn [fst snd] in Hin. nra.
Qed.

(** ** the scaled alphabet *)
Definition scaled (r : R) (z : Z * Z) : C := Cscal (/ r) (ZtoC z).

Lemma scaled_inj r z w : r <> 0 -> scaled r z = scaled r w -> z = w.
Proof.
  intros Hr E; unfold scaled, Cscal, ZtoC in E; cbn [fst snd] in E. injection E as E1 E2.
  assert (Hi : / r <> 0) by (apply Rinv_neq_0_compat; assumption).
  apply Rmult_eq_reg_l in E1, E2; try assumption. apply eq_IZR in E1, E2.
  destruct z, w; cbn [fst snd] in *; congruence.
Qed.

Lemma dist2Z_nonneg z w : (0 <= dist2Z z w)%Z.
Proof. unfold dist2Z; apply Z.add_nonneg_nonneg; apply Z.square_nonneg. Qed.

Lemma scaled_dist r z w : 0 < r -> Cabs (scaled r z - scaled r w)%C = / r * sqrt (IZR (dist2Z z w)).
Proof.
  intros Hr; unfold Cabs.
  replace (Cnorm2 (scaled r z - scaled r w)%C) with ((/ r * / r) * IZR (dist2Z z w)).
  - rewrite sqrt_mult.
    + rewrite sqrt_square; [reflexivity|]. apply Rlt_le, Rinv_0_lt_compat; assumption.
    + apply Rle_0_sqr.
    + apply IZR_le, dist2Z_nonneg.
  - unfold scaled, Cscal, Csub, Cnorm2, ZtoC, dist2Z; cbn [fst snd].
    rewrite plus_IZR, !mult_IZR, !minus_IZR. ring.
Qed.

Lemma scaled_dist_le r z w z' w' : 0 < r ->
  Cabs (scaled r z - scaled r w)%C <= Cabs (scaled r z' - scaled r w')%C <-> (dist2Z z w <= dist2Z z' w')%Z.
Proof.
  intros Hr; rewrite !scaled_dist by assumption.
  assert (Hi : 0 < / r) by (apply Rinv_0_lt_compat; assumption). split; intros H.
  - apply Rmult_le_reg_l in H; [|assumption]. apply sqrt_le_0 in H; [apply le_IZR; assumption| |];
      apply IZR_le, dist2Z_nonneg.
  - apply Rmult_le_compat_l; [lra|]. apply sqrt_le_1_alt, IZR_le; assumption.
Qed.

Section Alphabet.
Variable k : nat.
Hypothesis Hk : (1 <= k)%nat.
Let r := sqrt (cal_scaling_factor_qam k).
Let syms := map (scaled r) (cal_symbols_qam k).

Lemma r_pos : 0 < r.
Proof. apply sqrt_lt_R0, scale_pos; assumption. Qed.

Lemma syms_length : length syms = (2 ^ k)%nat.
Proof. unfold syms; rewrite map_length; apply cal_symbols_qam_length. Qed.
Lemma syms_NoDup : NoDup syms.
Proof.
  apply Injective_map_NoDup; [|apply cal_symbols_qam_NoDup].
  intros z w; apply scaled_inj. pose proof r_pos; lra.
Qed.

Lemma syms_power : Rsum (map (fun s => Cabs s ^ 2) syms) = INR (2 ^ k).
Proof.
  unfold syms; rewrite map_map.
  rewrite (map_ext _ (fun z => / (r * r) * (Cabs (ZtoC z) ^ 2))).
  - rewrite Rsum_map_scal. unfold r; rewrite sqrt_sqrt by (apply Rlt_le, scale_pos; assumption).
    pose proof (scale_pos k Hk) as Hp. rewrite scaling_is_mean in *. unfold Rmean in *.
    rewrite map_length, cal_symbols_qam_length in *. pose proof (INR_pow2_pos k).
    set (S := Rsum _) in *. assert (HS : S <> 0) by (intros E; rewrite E in Hp; unfold Rdiv in Hp; lra).
    field. split; lra.
  - intros z; unfold scaled. rewrite !Cabs_pow2, Cnorm2_scal. pose proof r_pos. field. lra.
Qed.

Lemma neg_self0 (x : R) : -1 * x = x -> x = 0.
Proof. lra. Qed.

Lemma syms_mean : Csum syms = C0.
Proof.
  assert (Hp : Permutation (map (fun s => (- s)%C) syms) syms).
  { apply NoDup_Permutation_bis.
    - apply Injective_map_NoDup; [|apply syms_NoDup]. intros [a b] [c d] E; injection E as E1 E2; f_equal; lra.
    - rewrite map_length; lia.
    - intros s Hs; apply in_map_iff in Hs; destruct Hs as [t [<- Ht]]. unfold syms in Ht; apply in_map_iff in Ht.
      destruct Ht as [z [<- Hz]]. apply symbols_neg in Hz; [|assumption].
      unfold syms. replace (- scaled r z)%C with (scaled r (- fst z, - snd z)%Z); [apply in_map; assumption|].
      unfold scaled, Cscal, ZtoC, Copp; cbn [fst snd]; rewrite !opp_IZR; f_equal; ring. }
  apply C_eq; [rewrite Re_Csum|rewrite Im_Csum].
  - assert (E : Rsum (map fst (map (fun s => (- s)%C) syms)) = Rsum (map fst syms)) by (apply Rsum_perm, Permutation_map; assumption).
    rewrite map_map in E. rewrite (map_ext _ (fun s : C => -1 * fst s)) in E by (intros; cbn; ring).
    rewrite Rsum_map_scal in E. unfold C0; cbn [fst snd]. apply neg_self0; exact E.
  - assert (E : Rsum (map snd (map (fun s => (- s)%C) syms)) = Rsum (map snd syms)) by (apply Rsum_perm, Permutation_map; assumption).
    rewrite map_map in E. rewrite (map_ext _ (fun s : C => -1 * snd s)) in E by (intros; cbn; ring).
    rewrite Rsum_map_scal in E. unfold C0; cbn [fst snd]. apply neg_self0; exact E.
Qed.

Lemma qam_mapping_ok : exists mp, qam_mapping k = Ok mp /\ mapping_ok k syms (gray_code_qam k) mp.
Proof.
  apply generate_mapping_ok; [assumption|apply gray_qam_code_ok|apply gray_code_qam_length|apply syms_length].
Qed.

Lemma qam_coded_in mp a p : mapping_ok k syms (gray_code_qam k) mp -> nth_error (coded_symbols mp) a = Some p ->
  exists z, In z (cal_symbols_qam k) /\ p = scaled r z.
Proof.
  intros [Hp _] Ha. apply nth_error_In in Ha. apply (Permutation_in _ Hp) in Ha.
  apply in_map_iff in Ha; destruct Ha as [z [<- Hz]]; eauto.
Qed.

Lemma qam_mindist mp : qam_mapping k = Ok mp -> minimum_distance (coded_symbols mp) (2 / r).
Proof.
  intros Hmp; destruct qam_mapping_ok as [mp' [Hmp' Hok]]. rewrite Hmp in Hmp'; injection Hmp' as <-.
  pose proof r_pos as Hr. assert (Hs4 : sqrt 4 = 2) by (replace 4 with (2 * 2) by ring; apply sqrt_square; lra).
  split.
  - intros a b p q Hab Ha Hb.
    destruct (qam_coded_in mp a p Hok Ha) as [z [Hz ->]], (qam_coded_in mp b q Hok Hb) as [w [Hw ->]].
    rewrite scaled_dist by assumption. unfold Rdiv; rewrite Rmult_comm.
    apply Rmult_le_compat_l; [apply Rlt_le, Rinv_0_lt_compat; assumption|].
    rewrite <- Hs4. apply sqrt_le_1_alt. apply IZR_le, (symbols_mindist k); try assumption.
    intros ->. apply Hab. eapply NoDup_nth_error_inj; try eassumption.
    eapply Permutation_NoDup; [symmetry; apply Hok|apply syms_NoDup].
  - destruct (symbols_adjacent k Hk) as [y [H1 H2]].
    assert (Hin : forall z, In z (cal_symbols_qam k) -> exists a, nth_error (coded_symbols mp) a = Some (scaled r z)).
    { intros z Hz; apply In_nth_error. eapply Permutation_in; [symmetry; apply Hok|]. apply in_map; assumption. }
    destruct (Hin _ H1) as [a Ha], (Hin _ H2) as [b Hb].
    exists a, b, (scaled r (1, y)%Z), (scaled r (-1, y)%Z). repeat split; try assumption.
    + intros ->. rewrite Ha in Hb. injection Hb as Hb. apply Rmult_eq_reg_l in Hb; [|apply Rinv_neq_0_compat; lra]. lra.
    + rewrite scaled_dist by assumption. unfold dist2Z; cbn [fst snd].
      replace ((1 - -1) * (1 - -1) + (y - y) * (y - y))%Z with 4%Z by lia. rewrite Hs4. field; lra.
Qed.

(** nearest neighbours are exactly the pairs at squared lattice distance 4 *)
Lemma qam_neighbours mp a b : qam_mapping k = Ok mp ->
  nearest_neighbours (coded_symbols mp) a b ->
  exists z w, nth_error (coded_symbols mp) a = Some (scaled r z) /\ nth_error (coded_symbols mp) b = Some (scaled r w) /\
    In z (cal_symbols_qam k) /\ In w (cal_symbols_qam k) /\ dist2Z z w = 4%Z.
Proof.
  intros Hmp [Hab [p [q [Ha [Hb Hmin]]]]].
  destruct qam_mapping_ok as [mp' [Hmp' Hok]]. rewrite Hmp in Hmp'; injection Hmp' as <-.
  destruct (qam_mindist mp Hmp) as [_ [c [d [p' [q' [Hcd [Hc [Hd E]]]]]]]].
  specialize (Hmin c d p' q' Hcd Hc Hd). pose proof r_pos as Hr.
  destruct (qam_coded_in mp a p Hok Ha) as [z [Hz ->]], (qam_coded_in mp b q Hok Hb) as [w [Hw ->]].
  exists z, w; repeat split; try assumption.
  assert (Hge : (4 <= dist2Z z w)%Z).
  { apply (symbols_mindist k); try assumption. intros ->. apply Hab. eapply NoDup_nth_error_inj; try eassumption.
    eapply Permutation_NoDup; [symmetry; apply Hok|apply syms_NoDup]. }
  rewrite E, scaled_dist in Hmin by assumption.
  assert (Hi : 0 < / r) by (apply Rinv_0_lt_compat; assumption).
  assert (Hs : sqrt (IZR (dist2Z z w)) <= 2) by (unfold Rdiv in Hmin; nra).
  assert (Hs4 : sqrt 4 = 2) by (replace 4 with (2 * 2) by ring; apply sqrt_square; lra).
  rewrite <- Hs4 in Hs. apply sqrt_le_0 in Hs; [apply le_IZR in Hs; lia| |lra]. apply IZR_le; lia.
Qed.
End Alphabet.

Lemma dist4_cases x y : (x * x + y * y = 4 -> x mod 2 = 0 -> y mod 2 = 0 ->
  (x = 2 \/ x = -2) /\ y = 0 \/ x = 0 /\ (y = 2 \/ y = -2))%Z.
Proof.
  intros H Hx Hy.
  assert (Bx : (-2 <= x <= 2)%Z) by (clear Hx Hy; nia).
  assert (By : (-2 <= y <= 2)%Z) by (clear Hx Hy; nia).
  assert (Cx : (x = -2 \/ x = 0 \/ x = 2)%Z) by (clear H Hy; lia).
  destruct Cx as [->|[->| ->]]; clear Hx; assert (Cy : (y = -2 \/ y = 0 \/ y = 2)%Z) by (clear H; lia);
    destruct Cy as [->|[->| ->]]; lia.
Qed.

Lemma glue_adjacent n i j i' j' : (i < 2 ^ n)%nat -> (j < 2 ^ n)%nat -> (i' < 2 ^ n)%nat -> (j' < 2 ^ n)%nat ->
  (i = i' /\ (j' = S j \/ j = S j')) \/ (j = j' /\ (i' = S i \/ i = S i')) ->
  differ_in_one_bit (glue n i j) (glue n i' j').
Proof.
  intros Hi Hj Hi' Hj' H. unfold glue.
  assert (step : forall u, differ_in_one_bit (bin2gray (N.of_nat u)) (bin2gray (N.of_nat (S u)))).
  { intros u; rewrite Nat2N.inj_succ; apply bin2gray_step. }
  destruct H as [[-> [->| ->]]|[-> [->| ->]]].
  - apply glue_differ_col; try (apply gray_lt_nat; assumption). apply step.
  - apply glue_differ_col; try (apply gray_lt_nat; assumption). apply differ_sym, step.
  - apply glue_differ_row; [apply gray_lt_nat; assumption|]. apply step.
  - apply glue_differ_row; [apply gray_lt_nat; assumption|]. apply differ_sym, step.
Qed.

Lemma square_neighbours_gray k mp a b : (1 <= k)%nat -> Nat.even k = true -> qam_mapping k = Ok mp ->
  nearest_neighbours (coded_symbols mp) a b -> differ_in_one_bit (N.of_nat a) (N.of_nat b).
Proof.
  intros Hk Ev Hmp Hnn.
  destruct (qam_neighbours k Hk mp a b Hmp Hnn) as [z [w [Ha [Hb [Hz [Hw Hd]]]]]].
  destruct (qam_mapping_ok k Hk) as [mp' [Hmp' Hok]]. rewrite Hmp in Hmp'; injection Hmp' as <-.
  set (r := sqrt (cal_scaling_factor_qam k)) in *.
  assert (Hr : 0 < r) by (apply r_pos; assumption).
  set (h := (k / 2)%nat) in *.
  assert (Hrow : row_bits k = h) by (unfold row_bits; rewrite Ev; reflexivity).
  assert (Hcol : col_bits k = h) by (unfold col_bits; rewrite Ev; reflexivity).
  assert (Hsym : cal_symbols_qam k = square_qam h).
  { unfold cal_symbols_qam, Nat.odd; rewrite Ev; reflexivity. }
  pose proof (even_half k Ev) as Eh. fold h in Eh. assert (Hh : (0 < h)%nat) by lia.
  assert (Hlabel : forall c u, nth_error (coded_symbols mp) c = Some (scaled r u) -> In u (square_qam h) ->
            exists i j, (i < 2 ^ h)%nat /\ (j < 2 ^ h)%nat /\ u = (pam_level (2 ^ h) i, pam_level (2 ^ h) j) /\
                        N.of_nat c = glue h i j).
  { intros c u Hc Hu. unfold square_qam in Hu; apply in_grid in Hu. destruct Hu as [i [j [Hi [Hj <-]]]].
    exists i, j; repeat split; try assumption.
    assert (Hg : nth_error (gray_code_qam k) (i * 2 ^ h + j) = Some (glue h i j)).
    { rewrite <- Hcol at 1. rewrite gray_code_qam_nth; [rewrite Hcol; reflexivity|rewrite Hrow; assumption|rewrite Hcol; assumption]. }
    destruct Hok as [Hp [Hl [Hin _]]]. specialize (Hin _ _ Hg).
    assert (Hs : nth_error (map (scaled r) (cal_symbols_qam k)) (i * 2 ^ h + j)
               = Some (scaled r (pam_level (2 ^ h) i, pam_level (2 ^ h) j))).
    { rewrite nth_error_map, Hsym. unfold square_qam; rewrite grid_nth by assumption; reflexivity. }
    fold r in Hin. rewrite Hs in Hin.
    assert (E : c = N.to_nat (glue h i j)); [|lia].
    eapply NoDup_nth_error_inj; [|exact Hc|exact Hin].
    eapply Permutation_NoDup; [symmetry; exact Hp|apply syms_NoDup; assumption]. }
  rewrite Hsym in Hz, Hw.
  destruct (Hlabel a z Ha Hz) as [i [j [Hi [Hj [-> Ea]]]]], (Hlabel b w Hb Hw) as [i' [j' [Hi' [Hj' [-> Eb]]]]].
  rewrite Ea, Eb. apply glue_adjacent; try assumption.
  unfold dist2Z in Hd; cbn [fst snd] in Hd. apply dist4_cases in Hd; unfold pam_level in *; lia.
Qed.
