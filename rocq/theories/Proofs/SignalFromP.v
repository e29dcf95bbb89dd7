(** Signals made from symbols or bits. *)
From Coq Require Import List ZArith NArith Bool Lia Permutation FinFun Reals Lra Psatz Arith ZifyBool ZifyNat ZifyN.
From Verif Require Import Common.Py Common.ListX Common.Cplx Common.SumX Model.Gray Model.Constellation Model.Decision
  Model.Sync Model.Quality Model.SignalFrom Spec.Bits Spec.Geometry Spec.Seq Spec.Metrics
  Proofs.GrayP Proofs.ConstP Proofs.DecisionP Proofs.MapP Proofs.QamP Proofs.PskP Proofs.C01P Proofs.PilotP Proofs.QualityP.
Import ListNotations.
Local Open Scope R_scope.

Lemma symbols_mapping_ok k p : (1 <= k)%nat -> exists mp, symbols_mapping k p = Ok mp /\
  mapping_ok k (map (fun z => Cscal (sqrt p / sqrt (cal_scaling_factor_qam k)) (ZtoC z)) (cal_symbols_qam k)) (gray_code_qam k) mp.
Proof.
  intros Hk. apply generate_mapping_ok; [assumption|apply gray_qam_code_ok|apply gray_code_qam_length|].
  rewrite map_length. apply cal_symbols_qam_length.
Qed.

Lemma encode_index k i : (i < 2 ^ k)%nat -> block_index k (encode_row k i) = i.
Proof.
  intros Hi. apply Nat2N.inj. rewrite block_index_value by apply encode_row_length.
  apply (encoding_value k (2 ^ k)); [assumption|]. now apply encoding_table_nth.
Qed.

Lemma map_Some_inj {A} (l l' : list A) : map Some l = map Some l' -> l = l'.
Proof. revert l'. induction l as [|x l IH]; intros [|y l'] H; cbn in H; try discriminate; [reflexivity|]. injection H as -> H. f_equal. now apply IH. Qed.

(** bits of the decided indices modulate to the decided symbols *)
Lemma remodulate k mp row : (1 <= k)%nat -> length (coded_symbols mp) = (2 ^ k)%nat -> coded_symbols mp <> [] ->
  modulate mp [concat (map (encode_row k) (map (dix (coded_symbols mp)) row))] = Ok [map (dsym (coded_symbols mp)) row].
Proof.
  intros Hk Hl Hne. set (cs := coded_symbols mp) in *. unfold modulate, modulate_arr. fold cs. cbn [mapM].
  set (bits := concat _). destruct (modulate_row_ok cs k bits Hk Hl) as (syms & E & _ & Hs). rewrite E. cbn [bind].
  assert (Hb : length bits = (length row * k)%nat).
  { unfold bits. rewrite (concat_length_const k); [now rewrite !map_length|]. intros r Hr. apply in_map_iff in Hr as (i & <- & _). apply encode_row_length. }
  rewrite Hb, Nat.div_mul, <- Hb, firstn_all in Hs by lia. unfold bits in Hs. rewrite chunks_concat in Hs.
  2:{ lia. } 2:{ intros r Hr. apply in_map_iff in Hr as (i & <- & _). apply encode_row_length. }
  rewrite !map_map in Hs. do 2 f_equal. apply map_Some_inj. rewrite Hs, map_map. apply map_ext. intros x.
  destruct (dec1_ok cs x Hne) as (_ & (H1 & _) & _). rewrite encode_index by (rewrite <- Hl; now apply dix_lt). exact H1.
Qed.

Lemma from_symbols_gen k symbs : (1 <= k)%nat -> symbs <> [] -> exists mp,
  symbols_mapping k (unique_power symbs) = Ok mp /\
  mapping_ok k (map (fun z => Cscal (sqrt (unique_power symbs) / sqrt (cal_scaling_factor_qam k)) (ZtoC z)) (cal_symbols_qam k)) (gray_code_qam k) mp /\
  from_symbol_array k symbs = Ok {| sig_samples := map (map (dsym (coded_symbols mp))) symbs;
    sig_bits := Bits1 (concat (map (encode_row k) (map (dix (coded_symbols mp)) (last symbs [])))); sig_map := mp |}.
Proof.
  intros Hk Hne. destruct (symbols_mapping_ok k (unique_power symbs) Hk) as (mp & E & Hok). exists mp. split; [assumption|]. split; [assumption|].
  unfold from_symbol_array. rewrite E. cbn [bind]. destruct Hok as (_ & Hl & _ & _ & He & _).
  assert (Hc : coded_symbols mp <> []).
  { intros H. rewrite H in Hl. cbn in Hl. assert (2 ^ k <> 0)%nat by (apply Nat.pow_nonzero; lia). lia. }
  rewrite (mapM_ok _ (map (dec1 (coded_symbols mp)))) by (intros row _; now apply make_decision_ok). cbn [bind].
  destruct (exists_last Hne) as (l & a & ->). rewrite map_app, rev_app_distr. cbn [map rev app]. rewrite last_last, He, map_map.
  fold (dix (coded_symbols mp)). rewrite demodulate_idx_ok.
  - cbn [bind]. apply (f_equal Ok). f_equal. rewrite map_app, !map_map. cbn [map]. rewrite map_app. cbn [map].
    f_equal; [apply map_ext; intros r; now rewrite map_map|]. f_equal. now rewrite map_map.
  - intros i Hi. apply in_map_iff in Hi as (x & <- & _). rewrite <- Hl. change (snd (dec1 (coded_symbols mp) x)) with (dix (coded_symbols mp) x). now apply dix_lt.
Qed.

(** every mode decided to a nearest point, the bits are those of the last mode *)
Lemma from_symbols_last k symbs : (1 <= k)%nat -> symbs <> [] -> exists s bits,
  from_symbol_array k symbs = Ok s /\ sig_bits s = Bits1 bits /\
  Forall2 (Forall2 (nearest (coded_symbols (sig_map s)))) symbs (sig_samples s) /\
  length bits = (k * length (last symbs []))%nat /\
  modulate (sig_map s) [bits] = Ok [last (sig_samples s) []].
Proof.
  intros Hk Hne. destruct (from_symbols_gen k symbs Hk Hne) as (mp & _ & Hok & E). destruct Hok as (_ & Hl & _ & _ & He & _).
  assert (Hc : coded_symbols mp <> []).
  { intros H. rewrite H in Hl. cbn in Hl. assert (2 ^ k <> 0)%nat by (apply Nat.pow_nonzero; lia). lia. }
  eexists _, _. split; [exact E|]. cbn [sig_bits sig_samples sig_map]. split; [reflexivity|]. split; [|split].
  - clear E. induction symbs as [|row symbs IH]; [congruence|]. cbn [map].
    assert (Hrow : Forall2 (nearest (coded_symbols mp)) row (map (dsym (coded_symbols mp)) row)).
    { clear IH Hne. induction row as [|x row IH]; cbn [map]; [constructor|]. constructor; [|exact IH]. split; [now apply dsym_in|]. intros t Ht.
      destruct (dec1_ok (coded_symbols mp) x Hc) as (_ & (_ & H2 & _) & _). apply In_nth_error in Ht as (j & Hj). eapply H2, Hj. }
    destruct symbs as [|r2 rs]; [constructor; [exact Hrow|constructor]|]. constructor; [exact Hrow|]. apply IH. discriminate.
  - rewrite (concat_length_const k).
    2:{ intros r Hr. apply in_map_iff in Hr as (i & <- & _). apply encode_row_length. }
    rewrite !map_length. lia.
  - rewrite remodulate by assumption. do 2 f_equal. clear E. destruct (exists_last Hne) as (l & a & ->). rewrite map_app. cbn [map]. now rewrite !last_last.
Qed.

(** one mode: the bits of all modes *)
Lemma from_symbols_one k row : (1 <= k)%nat -> exists s bits,
  from_symbol_array k [row] = Ok s /\ sig_bits s = Bits1 bits /\
  Forall2 (Forall2 (nearest (coded_symbols (sig_map s)))) [row] (sig_samples s) /\
  length bits = (k * length row)%nat /\
  modulate (sig_map s) [bits] = Ok (sig_samples s).
Proof.
  intros Hk. destruct (from_symbols_last k [row] Hk ltac:(discriminate)) as (s & bits & E & Hb & Hn & Hlen & Hm). exists s, bits.
  repeat (split; [assumption|]). rewrite Hm. inversion Hn as [|? y ? l' Hy Hl']; subst. inversion Hl'; subst. reflexivity.
Qed.

(** several modes: too few bits *)
Lemma from_symbols_several k symbs n : (1 <= k)%nat -> (2 <= length symbs)%nat -> (1 <= n)%nat -> (forall row, In row symbs -> length row = n) ->
  exists s bits, from_symbol_array k symbs = Ok s /\ sig_bits s = Bits1 bits /\ (length bits < k * (length symbs * n))%nat /\
    length (concat symbs) = (length symbs * n)%nat.
Proof.
  intros Hk H2 Hn Hr. assert (Hne : symbs <> []) by (intros ->; cbn in H2; lia).
  destruct (from_symbols_last k symbs Hk Hne) as (s & bits & E & Hb & _ & Hlen & _). exists s, bits. split; [assumption|]. split; [assumption|].
  split; [|now apply concat_length_const]. rewrite Hlen.
  replace (length (last symbs [])) with n; [nia|]. symmetry. apply Hr. destruct (exists_last Hne) as (l & a & ->). rewrite last_last. apply in_app_iff. right. now left.
Qed.

(** ** symbols of the constellation *)
Lemma nodup_power l l' : NoDup l' -> (forall s, In s l <-> In s l') ->
  Rmean (map (fun s => Cabs s ^ 2) (nodup Ceq_dec l)) = Rmean (map (fun s => Cabs s ^ 2) l').
Proof.
  intros Hnd Hin. assert (P : Permutation (nodup Ceq_dec l) l').
  { apply NoDup_Permutation; [apply NoDup_nodup|assumption|]. intros s. rewrite nodup_In. apply Hin. }
  unfold Rmean. rewrite !map_length, (Permutation_length P). f_equal. apply Rsum_perm, Permutation_map, P.
Qed.

Lemma scal_inj c z w : c <> 0 -> Cscal c (ZtoC z) = Cscal c (ZtoC w) -> z = w.
Proof.
  intros Hc E. unfold Cscal, ZtoC in E. cbn [fst snd] in E. injection E as E1 E2.
  apply Rmult_eq_reg_l in E1, E2; try assumption. apply eq_IZR in E1, E2. destruct z, w; cbn [fst snd] in *; congruence.
Qed.

Lemma full_power k c symbs : (1 <= k)%nat -> 0 < c ->
  (forall s, In s (concat symbs) <-> exists z, In z (cal_symbols_qam k) /\ s = Cscal c (ZtoC z)) ->
  sqrt (unique_power symbs) / sqrt (cal_scaling_factor_qam k) = c.
Proof.
  intros Hk Hc Hin. unfold unique_power.
  rewrite (nodup_power _ (map (fun z => Cscal c (ZtoC z)) (cal_symbols_qam k))).
  - rewrite map_map. rewrite (map_ext _ (fun z => (c * c) * (Cabs (ZtoC z) ^ 2))).
    2:{ intros z. rewrite !Cabs_pow2, Cnorm2_scal. ring. }
    unfold Rmean. rewrite Rsum_map_scal, map_length.
    pose proof (scale_pos k Hk) as Hp. pose proof (scaling_is_mean k) as Hs. unfold Rmean in Hs. rewrite map_length in Hs.
    match goal with |- sqrt ?a / _ = _ => replace a with (c * c * cal_scaling_factor_qam k) by (rewrite Hs; unfold Rdiv; ring) end.
    rewrite sqrt_mult by nra. rewrite sqrt_square by lra. field. pose proof (sqrt_lt_R0 _ Hp). lra.
  - apply Injective_map_NoDup; [|apply cal_symbols_qam_NoDup]. intros z w. apply scal_inj. lra.
  - intros s. rewrite Hin, in_map_iff. split; intros (z & H); exists z; intuition congruence.
Qed.

Lemma from_symbols_full k c symbs : (1 <= k)%nat -> 0 < c ->
  (forall s, In s (concat symbs) <-> exists z, In z (cal_symbols_qam k) /\ s = Cscal c (ZtoC z)) ->
  exists s bits, from_symbol_array k symbs = Ok s /\ sig_samples s = symbs /\
    Permutation (coded_symbols (sig_map s)) (map (fun z => Cscal c (ZtoC z)) (cal_symbols_qam k)) /\
    sig_bits s = Bits1 bits /\ modulate (sig_map s) [bits] = Ok [last symbs []].
Proof.
  intros Hk Hc Hin. pose proof (full_power k c symbs Hk Hc Hin) as Hp.
  assert (Hne : symbs <> []).
  { intros ->. destruct (symbols_adjacent k Hk) as (y & Hy & _). destruct (proj2 (Hin (Cscal c (ZtoC (1, y)%Z)))). eauto. }
  destruct (from_symbols_gen k symbs Hk Hne) as (mp & _ & Hok & E). rewrite Hp in Hok. destruct Hok as (HP & Hl & _).
  assert (Hcs : coded_symbols mp <> []).
  { intros H. rewrite H in Hl. cbn in Hl. assert (2 ^ k <> 0)%nat by (apply Nat.pow_nonzero; lia). lia. }
  assert (Hd : forall row, In row symbs -> map (dsym (coded_symbols mp)) row = row).
  { intros row Hr. rewrite <- (map_id row) at 2. apply map_ext_in. intros x Hx. apply dsym_point.
    apply (Permutation_in _ (Permutation_sym HP)). apply in_map_iff. destruct (proj1 (Hin x)) as (z & Hz & ->); [apply in_concat; eauto|]. eauto. }
  eexists _, _. split; [exact E|]. cbn [sig_samples sig_bits sig_map].
  split; [rewrite <- (map_id symbs) at 2; apply map_ext_in; exact Hd|]. split; [exact HP|]. split; [reflexivity|].
  rewrite remodulate by assumption. do 2 f_equal. apply Hd. destruct (exists_last Hne) as (l & a & ->). rewrite last_last. apply in_app_iff. right. now left.
Qed.

(** a corner of 16-QAM alone is moved *)
Lemma from_symbols_corner : exists mp p s, qam_mapping 4 = Ok mp /\ In p (coded_symbols mp) /\
  from_symbol_array 4 [[p]] = Ok s /\ sig_samples s <> [[p]].
Proof.
  destruct (qam_mapping_ok 4 ltac:(lia)) as (mp & Emp & Hok). set (r := sqrt (cal_scaling_factor_qam 4)) in *.
  assert (Hr : 0 < r) by (apply r_pos; lia).
  set (p := scaled r (3, 3)%Z). exists mp, p.
  destruct (from_symbols_gen 4 [[p]] ltac:(lia) ltac:(discriminate)) as (mp' & _ & Hok' & E). eexists. split; [assumption|]. split; [|split; [exact E|]].
  - destruct Hok as (HP & _). apply (Permutation_in _ (Permutation_sym HP)). apply in_map. vm_compute. tauto.
  - cbn [sig_samples map]. intros H. injection H as H. assert (Hc : coded_symbols mp' <> []).
    { destruct Hok' as (_ & Hl & _). intros H'. rewrite H' in Hl. discriminate. }
    pose proof (dsym_in (coded_symbols mp') p Hc) as Hin. destruct Hok' as (HP & _). apply (Permutation_in _ HP), in_map_iff in Hin as (z & Hz & Hzi).
    assert (Hpz : p = Cscal (sqrt (unique_power [[p]]) / r) (ZtoC z)).
    { etransitivity; [symmetry; exact H|]. symmetry. exact Hz. }
    clear Hz H E HP Emp Hok.
    assert (Hu : sqrt (unique_power [[p]]) = sqrt 18 / r).
    { unfold unique_power. cbn [concat app nodup]. destruct (in_dec Ceq_dec p []) as [[]|_]. unfold Rmean, Rsum. cbn [map length fold_right INR].
      match goal with |- sqrt ?a = _ => replace a with (18 * (/ r * / r)) end.
      - rewrite sqrt_mult by (try lra; apply Rle_0_sqr). rewrite sqrt_square by (apply Rlt_le, Rinv_0_lt_compat; assumption). reflexivity.
      - rewrite Cabs_pow2. unfold p, scaled. rewrite Cnorm2_scal, Cnorm2_ZtoC. cbn [fst snd]. field. lra. }
    rewrite Hu in Hpz. apply (f_equal fst) in Hpz. unfold p, scaled, Cscal, ZtoC in Hpz. cbn [fst snd] in Hpz.
    (* 3 r = sqrt 18 z with r^2 = 10 *)
    assert (Hrr : r * r = 10).
    { unfold r. rewrite sqrt_sqrt by (apply Rlt_le, scale_pos; lia). unfold cal_scaling_factor_qam. cbn [Nat.even]. cbn [Nat.pow Nat.mul Nat.add INR]. lra. }
    assert (H3 : 3 * r = sqrt 18 * IZR (fst z)).
    { apply (Rmult_eq_reg_l (/ r * / r)); [|apply Rmult_integral_contrapositive_currified; apply Rinv_neq_0_compat; lra].
      transitivity (/ r * 3); [field; lra|]. rewrite Hpz. field. lra. }
    assert (H4 : 90 = 18 * (IZR (fst z) * IZR (fst z))).
    { transitivity ((3 * r) * (3 * r)); [nra|]. rewrite H3. pose proof (sqrt_sqrt 18 ltac:(lra)). nra. }
    rewrite <- !mult_IZR in H4. apply eq_IZR in H4. assert (fst z * fst z = 5)%Z by lia.
    clear -H. generalize dependent (fst z). intros a Ha. assert (-3 < a < 3)%Z by nia.
    assert (a = -2 \/ a = -1 \/ a = 0 \/ a = 1 \/ a = 2)%Z as [->|[->|[->|[->| ->]]]] by lia; lia.
Qed.

(** ** bit arrays *)
Lemma from_bits k bits : (1 <= k <= 16)%nat -> exists s out,
  from_bit_array k bits = Ok s /\ sig_bits s = Bits2 bits /\ qam_mapping k = Ok (sig_map s) /\ sig_samples s = out /\
  Forall2 (fun b syms => length syms = (length b / k)%nat) bits out /\
  demodulate (sig_map s) out = Ok (map (fun b => firstn (length b / k * k) b) bits).
Proof.
  intros Hk. unfold from_bit_array. set (arr := map _ bits).
  assert (Ha : arr = map (fun row => firstn (length row / k * k) row) bits).
  { apply map_ext. intros row. destruct (Nat.ltb_spec 0 (length row mod k)) as [H|H]; [reflexivity|].
    symmetry. apply firstn_all2. pose proof (Nat.div_mod_eq (length row) k). lia. }
  clearbody arr. subst arr. set (arr := map _ bits).
  destruct (qam_roundtrip k arr Hk) as (mp & out & Emp & Eout & Hf & Hd). rewrite Emp. cbn [bind]. rewrite Eout. cbn [bind].
  assert (Hla : forall row : list bool, (length (firstn (length row / k * k) row) / k = length row / k)%nat).
  { intros row. rewrite firstn_length_le; [apply Nat.div_mul; lia|]. rewrite Nat.mul_comm. apply Nat.mul_div_le. lia. }
  eexists _, out. split; [reflexivity|]. cbn [sig_bits sig_map sig_samples]. split; [reflexivity|]. split; [reflexivity|]. split; [reflexivity|]. split.
  - unfold arr in Hf. clear -Hf Hla. revert out Hf. induction bits as [|b bits IH]; intros out Hf; inversion Hf; subst; constructor; [|now apply IH].
    destruct H1 as (H1 & _). now rewrite H1.
  - rewrite Hd. f_equal. unfold arr. rewrite map_map. apply map_ext. intros row. rewrite Hla. rewrite firstn_firstn. f_equal. lia.
Qed.

Lemma from_bits_whole k bits : (1 <= k <= 16)%nat -> (forall row, In row bits -> length row mod k = 0)%nat -> exists s,
  from_bit_array k bits = Ok s /\ sig_bits s = Bits2 bits /\ modulate (sig_map s) bits = Ok (sig_samples s) /\ demodulate (sig_map s) (sig_samples s) = Ok bits.
Proof.
  intros Hk Hw. destruct (from_bits k bits Hk) as (s & out & E & Hb & Hm & Ho & _ & Hd). exists s. split; [assumption|]. split; [assumption|].
  assert (Hid : forall row, In row bits -> firstn (length row / k * k) row = row).
  { intros row Hr. apply firstn_all2. specialize (Hw row Hr). pose proof (Nat.div_mod_eq (length row) k). lia. }
  split.
  - unfold from_bit_array in E. rewrite Hm in E. cbn [bind] in E. rewrite (map_ext_in _ (fun r => r)), map_id in E.
    + destruct (modulate (sig_map s) bits); [|discriminate]. cbn [bind] in E. injection E as <-. reflexivity.
    + intros row Hr. destruct (0 <? length row mod k)%nat; [now apply Hid|reflexivity].
  - rewrite Ho, Hd. f_equal. rewrite <- (map_id bits) at 2. apply map_ext_in. exact Hid.
Qed.

(** the bits that were cut off stay in the attribute *)
Lemma from_bits_kept k bits : (1 <= k <= 16)%nat -> (exists row, In row bits /\ length row mod k <> 0)%nat -> exists s,
  from_bit_array k bits = Ok s /\ sig_bits s = Bits2 bits /\ demodulate (sig_map s) (sig_samples s) <> Ok bits.
Proof.
  intros Hk (row & Hr & Hm). destruct (from_bits k bits Hk) as (s & out & E & Hb & _ & Ho & _ & Hd). exists s. split; [assumption|]. split; [assumption|].
  rewrite Ho, Hd. intros H. injection H as H. assert (firstn (length row / k * k) row = row).
  { clear -H Hr. induction bits as [|b bits IH]; [destruct Hr|]. cbn [map] in H. injection H as H1 H2. destruct Hr as [->|Hr]; [assumption|now apply IH]. }
  apply (f_equal (@length bool)) in H0. rewrite firstn_length in H0. pose proof (Nat.div_mod_eq (length row) k). lia.
Qed.
