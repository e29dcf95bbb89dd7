(** The evaluation of a signal that arrives undisturbed: synchronisation and error counting together. *)
From Coq Require Import List ZArith NArith Arith Bool Permutation Lia Reals Lra.
From Verif Require Import Common.Py Common.ListX Common.Cplx Common.SumX Model.Constellation Model.Sync Model.Quality Model.Equaliser
  Spec.Geometry Spec.Seq Spec.Metrics Spec.Link Proofs.MapP Proofs.QamP Proofs.AdjustP Proofs.CorrP Proofs.SyncP Proofs.SyncQ Proofs.QualityP Proofs.EqualS Proofs.EqInitP Proofs.PskP Proofs.C01P Proofs.C02P Common.Angle.
Import ListNotations.
Local Open Scope R_scope.

Lemma sync_acm t r p acm : sync_and_adjust t r AdjTx = Ok (p, acm) -> exists ix y ii, find_sequence_offset_complex r t = Ok (ix, y, ii, acm).
Proof.
  unfold sync_and_adjust. destruct (find_sequence_offset_complex r t) as [[[[ix y] ii] a]|e] eqn:E; [|discriminate]. cbn [bind]. intros H. exists ix, y, ii.
  destruct (length r <? length t)%nat; [|destruct (length t <? length r)%nat].
  - destruct (adjust_data_length _ _ _ _); [|discriminate]. cbn [bind] in H. congruence.
  - destruct (adjust_data_length _ _ _ _); [|discriminate]. cbn [bind] in H. congruence.
  - congruence.
Qed.
Lemma corr_some r t : r <> [] -> t <> [] -> all_nonzero r -> all_nonzero t -> corr r t (Z.of_nat (length r) - 1) <> C0.
Proof.
  intros Hr Ht Nr Nt. assert (Lr : (0 < length r)%nat) by (destruct r; [contradiction|cbn; lia]). destruct t as [|t0 t]; [contradiction|].
  assert (E : corr r (t0 :: t) (Z.of_nat (length r) - 1) = (nth (length r - 1) r C0 * Cconj t0)%C).
  { unfold corr. rewrite (csum_single _ _ 0%nat).
    - rewrite Z.add_0_r. replace (Z.of_nat (length r) - 1)%Z with (Z.of_nat (length r - 1)) by lia. rewrite ext_nth. reflexivity.
    - cbn [length]. lia.
    - intros k Hk Hk0. rewrite ext_out by lia. cring. }
  rewrite E. intros Z. apply (f_equal Cnorm2) in Z. rewrite Cnorm2_mul, Cnorm2_conj, Cnorm2_0 in Z. apply Rmult_integral in Z as [Z|Z]; apply Cnorm2_zero in Z.
  - apply (Nr (nth (length r - 1) r C0)); [apply nth_In; lia|exact Z].
  - apply (Nt t0); [now left|exact Z].
Qed.
Lemma fst_abs z : fst z <= Cabs z.
Proof.
  unfold Cabs. destruct (Rle_or_lt 0 (fst z)) as [H|H].
  - rewrite <- (sqrt_Rsqr (fst z) H). apply sqrt_le_1_alt. unfold Cnorm2, Rsqr. nra.
  - pose proof (sqrt_pos (Cnorm2 z)). lra.
Qed.
Lemma link_energy t r p q t' d : (0 < length t)%nat -> periodic_copy t p q r -> length t' = length t -> energy_at r t' d <= seq_energy t.
Proof.
  intros HL Hp El. rewrite <- (period_energy t (d - p) HL). unfold energy_at. rewrite El. apply rsum_le. intros k Hk.
  destruct (Z_lt_le_dec (d + Z.of_nat k) 0) as [H|H]; [|destruct (Z_lt_le_dec (d + Z.of_nat k) (Z.of_nat (length r))) as [H1|H1]].
  - rewrite ext_out by lia. rewrite Cnorm2_0. apply Cnorm2_nonneg.
  - rewrite (periodic_ext t p q r) by (assumption || lia). rewrite Cnorm2_mul, quarter_unit, Rmult_1_l. right. f_equal. f_equal. lia.
  - rewrite ext_out by lia. rewrite Cnorm2_0. apply Cnorm2_nonneg.
Qed.
Lemma quarter_conj q : (q < 4)%nat -> (Cconj (quarter q) * quarter q)%C = C1.
Proof. intros H. do 4 (destruct q as [|q]; [cbn; apply C_eq; cbn; ring|]). lia. Qed.
Lemma own_occurs t r p q : (0 < length t)%nat -> (2 * length t <= length r)%nat -> periodic_copy t p q r ->
  occurs_at r t (p mod Z.of_nat (length t)) (quarter q).
Proof.
  intros HL Hlen Hp. pose proof (Z.mod_pos_bound p (Z.of_nat (length t)) ltac:(lia)) as Hpm. pose proof (Z.div_mod p (Z.of_nat (length t)) ltac:(lia)) as Hpd.
  split; [lia|]. intros k Hk. rewrite (periodic_ext t p q r) by (assumption || lia). f_equal. unfold per. rewrite ext_nth. f_equal.
  rewrite (mod_eq (p mod Z.of_nat (length t) + Z.of_nat k - p) (Z.of_nat (length t)) (- (p / Z.of_nat (length t))) (Z.of_nat k)); [now rewrite Nat2Z.id|lia|lia].
Qed.
Lemma link_nonzero t r p q : (0 < length t)%nat -> all_nonzero t -> periodic_copy t p q r -> all_nonzero r.
Proof.
  intros HL Ht Hp s Hs E0. destruct (In_nth_error _ _ Hs) as [k Ek]. pose proof (nth_error_Some_lt _ _ _ Ek) as Hk. apply ext_in in Ek.
  rewrite (periodic_ext t p q r) in Ek by (assumption || lia). subst s. apply (f_equal Cnorm2) in Ek. rewrite Cnorm2_mul, quarter_unit, Cnorm2_0, Rmult_1_l in Ek.
  apply Cnorm2_zero in Ek. revert Ek. apply Ht. unfold per. apply nth_In. pose proof (Z.mod_pos_bound (Z.of_nat k - p) (Z.of_nat (length t)) ltac:(lia)). lia.
Qed.
Lemma corr_of t r d0 ix y ii acm : t <> [] -> r <> [] -> corr r t d0 <> C0 -> find_sequence_offset_complex r t = Ok (ix, y, ii, acm) ->
  (exists d, acm = fst (corr r (turned ii t) d)) /\ (forall q d, (q < 4)%nat -> fst (corr r (turned q t) d) <= acm).
Proof.
  intros Ht Hr H0 E. destruct (proj2 (c15 r t Hr Ht) d0 H0) as (ix' & ii' & acm' & E' & _ & _ & _ & _ & A & B). rewrite E' in E. injection E as <- <- <- <-. tauto.
Qed.
Lemma own_acm t r p q s acm : t <> [] -> all_nonzero t -> (q < 4)%nat -> (2 * length t <= length r)%nat -> periodic_copy t p q r ->
  sync_and_adjust t r AdjTx = Ok (s, acm) -> seq_energy t <= acm.
Proof.
  intros Ht Nt Hq Hlen Hp E. assert (HL : (0 < length t)%nat) by (destruct t; [contradiction|cbn; lia]).
  assert (Hr : r <> []) by (intros ->; cbn in Hlen; lia).
  destruct (sync_acm _ _ _ _ E) as (ix & y & ii & F).
  destruct (corr_of _ _ _ _ _ _ _ Ht Hr (corr_some r t Hr Ht (link_nonzero _ _ _ _ HL Nt Hp) Nt) F) as [_ B].
  specialize (B q (p mod Z.of_nat (length t))%Z Hq). rewrite corr_turned in B. rewrite (occurs_corr _ _ _ _ (own_occurs t r p q HL Hlen Hp)) in B.
  eapply Rle_trans; [|exact B]. right. replace (Cconj (quarter q) * Cscal (seq_energy t) (quarter q))%C with (Cscal (seq_energy t) (Cconj (quarter q) * quarter q)%C) by cring.
  rewrite quarter_conj by exact Hq. cbn. ring.
Qed.
Lemma other_acm t t' r p q s acm : t <> [] -> t' <> [] -> all_nonzero t -> all_nonzero t' -> length t' = length t -> seq_energy t' = seq_energy t ->
  (2 * length t <= length r)%nat -> periodic_copy t p q r -> (forall d u, Cnorm2 u = 1 -> ~ occurs_at r t' d u) ->
  sync_and_adjust t' r AdjTx = Ok (s, acm) -> acm < seq_energy t.
Proof.
  intros Ht Ht' Nt Nt' El Ee Hlen Hp Hno E. assert (HL : (0 < length t)%nat) by (destruct t; [contradiction|cbn; lia]).
  assert (Hr : r <> []) by (intros ->; cbn in Hlen; lia).
  destruct (sync_acm _ _ _ _ E) as (ix & y & ii & F).
  destruct (corr_of _ _ _ _ _ _ _ Ht' Hr (corr_some r t' Hr Ht' (link_nonzero _ _ _ _ HL Nt Hp) Nt') F) as [[d ->] _].
  pose proof (link_energy t r p q t' d HL Hp El) as He. rewrite <- Ee in He |- *. pose proof (seq_energy_pos t' Ht' Nt') as P0.
  eapply Rle_lt_trans; [apply fst_abs|]. rewrite Cabs_corr_turned.
  pose proof (corr_bound _ _ _ He) as Hb. destruct (Cabs_le_sqr _ _ (Rlt_le _ _ P0) Hb) as [Hlt|Heq]; [exact Hlt|exfalso].
  destruct (corr_max_occurs r t' d Ht' Nt' He) as (u & Hu & Ho & _).
  - rewrite <- Heq. unfold Cabs. symmetry. apply sqrt_sqrt, Cnorm2_nonneg.
  - exact (Hno d u Hu Ho).
Qed.
Lemma nodup_nth_firstn (l : list nat) j i : NoDup l -> nth_error l j = Some i -> ~ In i (firstn j l).
Proof.
  intros H E I. apply In_nth_error in I as [k Ek]. assert (k < j)%nat by (apply nth_error_Some_lt in Ek; rewrite firstn_length in Ek; lia).
  rewrite nth_error_firstn_lt in Ek by lia. assert (k = j); [|lia].
  apply (proj1 (NoDup_nth_error l) H); [eapply nth_error_Some_lt; eassumption|congruence].
Qed.
Lemma firstn_S_nth (l : list nat) : forall j i, nth_error l j = Some i -> firstn (S j) l = firstn j l ++ [i].
Proof. induction l as [|a l IH]; intros [|j] i; cbn [nth_error]; try discriminate; intros E; [injection E as ->; reflexivity|]. cbn [firstn app]. now rewrite <- (IH _ _ E). Qed.
Lemma link_sync tx rx modes n e : (0 < n)%nat -> rect tx n -> Forall all_nonzero tx -> Forall no_self_copy tx -> Forall (fun t => seq_energy t = e) tx ->
  NoDup modes -> Forall2 (fun i r => exists p q, arrives tx i p q r) modes rx -> signal_sync_and_adjust tx rx false = Ok (rx, rx).
Proof.
  intros Hn Hrect Hnz Hns He Hnd Hl. rewrite Forall_forall in Hnz, Hns, He. unfold rect in Hrect. rewrite Forall_forall in Hrect.
  assert (Ne : forall t, In t tx -> t <> []) by (intros t It ->; specialize (Hrect _ It); cbn in Hrect; lia).
  assert (Lm : length modes = length rx) by (clear - Hl; induction Hl; cbn; congruence).
  assert (At : forall j i r, nth_error modes j = Some i -> nth_error rx j = Some r -> exists p q, arrives tx i p q r).
  { clear - Hl. induction Hl; intros [|j] i r; cbn; try discriminate; [|apply IHHl]. intros E1 E2. injection E1 as <-. injection E2 as <-. assumption. }
  assert (Hlen : (length rx <= length tx)%nat).
  { rewrite <- Lm, <- (seq_length (length tx) 0). apply NoDup_incl_length; [exact Hnd|]. intros i Hi. apply In_nth_error in Hi as [j Ej].
    destruct (nth_error rx j) as [r|] eqn:Er; [|apply nth_error_None in Er; apply nth_error_Some_lt in Ej; lia].
    destruct (At _ _ _ Ej Er) as (p & q & _ & (t & Et & _) & _). apply in_seq. apply nth_error_Some_lt in Et. lia. }
  assert (Tot : forall t r, In t tx -> In r rx -> t <> [] /\ r <> [] /\ exists d, corr r t d <> C0).
  { intros t r It Ir. split; [now apply Ne|]. apply In_nth_error in Ir as [j Ej].
    destruct (nth_error modes j) as [i|] eqn:Ei; [|apply nth_error_None in Ei; apply nth_error_Some_lt in Ej; lia].
    destruct (At _ _ _ Ei Ej) as (p & q & Hq & (t0 & Et & H2 & Hp) & _). apply nth_error_In in Et.
    assert (HL : (0 < length t0)%nat) by (rewrite (Hrect _ Et); exact Hn).
    assert (Hr : r <> []) by (intros ->; cbn in H2; lia). split; [exact Hr|]. eexists. apply corr_some; [exact Hr|now apply Ne| |now apply Hnz].
    exact (link_nonzero _ _ _ _ HL (Hnz _ Et) Hp). }
  destruct (c16_ok tx rx Hlen Tot) as (ts & rs & E). rewrite E.
  destruct (c16 _ _ _ _ E) as (ms & L1 & L2 & L3 & Nd & M).
  assert (Step : forall j, (j < length rx)%nat -> firstn j ms = firstn j modes -> nth_error ms j = nth_error modes j /\
            forall r, nth_error rx j = Some r -> nth_error ts j = Some r /\ nth_error rs j = Some r).
  { intros j Hj Hf. destruct (nth_error_lt_Some ms j ltac:(lia)) as [i Ei]. destruct (nth_error_lt_Some modes j ltac:(lia)) as [i0 Ei0].
    destruct (M j i Ei) as (r & t & r' & Er & Et & Er' & ti & acm & Eti & Es & B). destruct (At _ _ _ Ei0 Er) as (p & q & Hq & (t0 & Et0 & H2 & Hp) & Hno).
    pose proof (nth_error_In _ _ Eti) as Iti. pose proof (nth_error_In _ _ Et0) as It0.
    assert (F0 : (i0 < length tx)%nat /\ ~ In i0 (firstn j ms)) by (split; [eapply nth_error_Some_lt; eassumption|rewrite Hf; now apply nodup_nth_firstn]).
    destruct (B i0 t0 F0 Et0) as (p' & acm' & Es' & Ha).
    pose proof (own_acm _ _ _ _ _ _ (Ne _ It0) (Hnz _ It0) Hq H2 Hp Es') as Hown.
    assert (Hi : i = i0).
    { destruct (Nat.eq_dec i i0) as [|D]; [assumption|exfalso].
      pose proof (other_acm t0 ti r p q _ _ (Ne _ It0) (Ne _ Iti) (Hnz _ It0) (Hnz _ Iti) ltac:(rewrite (Hrect _ Iti), (Hrect _ It0); reflexivity)
        ltac:(rewrite (He _ Iti), (He _ It0); reflexivity) H2 Hp (Hno i ti D Eti) Es). lra. }
    subst i. split; [congruence|]. intros r1 Er1. rewrite Er in Er1. injection Er1 as <-. rewrite Eti in Et0. injection Et0 as ->.
    destruct (c13_recovers t0 r p q (Ne _ It0) (Hnz _ It0) (Hns _ It0) Hq H2 Hp) as [a Ea]. rewrite Ea in Es. injection Es as <- <- _. now split. }
  assert (Pre : forall j, (j <= length rx)%nat -> firstn j ms = firstn j modes).
  { induction j as [|j IH]; intros Hj; [reflexivity|]. destruct (Step j ltac:(lia) (IH ltac:(lia))) as [S _].
    destruct (nth_error_lt_Some modes j ltac:(lia)) as [i0 Ei0]. rewrite Ei0 in S.
    rewrite (firstn_S_nth ms j i0 S), (firstn_S_nth modes j i0 Ei0). now rewrite IH by lia. }
  assert (All : forall l, length l = length rx -> (forall j r, nth_error rx j = Some r -> nth_error l j = Some r) -> l = rx).
  { intros l El H. apply nth_error_ext. intros j. destruct (nth_error rx j) as [r|] eqn:Er; [now apply H|]. apply nth_error_None in Er. apply nth_error_None. lia. }
  rewrite (All ts L2), (All rs L3); [reflexivity| |]; intros j r Er; pose proof (nth_error_Some_lt _ _ _ Er) as Hj; destruct (Step j Hj (Pre j ltac:(lia))) as [_ S]; now apply S.
Qed.

(** ** error rates *)
Lemma qam_coded_alphabet k mp : (1 <= k)%nat -> qam_mapping k = Ok mp -> forall s, In s (coded_symbols mp) <-> In s (qam_alphabet k).
Proof.
  intros Hk Hm s. destruct (qam_mapping_ok k Hk) as [mp' [Hm' Hok]]. rewrite Hm in Hm'. injection Hm' as <-. destruct Hok as [Hp _]. rewrite alphabet_in.
  split; intros H.
  - apply (Permutation_in _ Hp) in H. apply in_map_iff in H as [z [<- Hz]]. exists z. split; [exact Hz|reflexivity].
  - destruct H as [z [Hz ->]]. apply (Permutation_in _ (Permutation_sym Hp)). apply in_map_iff. exists z. split; [reflexivity|exact Hz].
Qed.

Lemma turn_iter (P : C -> Prop) : (forall s, P s -> P (Ci * s)%C) -> forall q s, P s -> P (quarter q * s)%C.
Proof.
  intros H q s Hs.
  assert (H1 := H _ Hs). assert (H2 := H _ H1). assert (H3 := H _ H2).
  destruct q as [|[|[|q]]]; cbn [quarter].
  - replace (C1 * s)%C with s by cring. exact Hs.
  - exact H1.
  - replace ((-1, 0) * s)%C with (Ci * (Ci * s))%C by (apply C_eq; unfold Ci, Cmul; cbn [fst snd]; ring). exact H2.
  - replace ((0, -1) * s)%C with (Ci * (Ci * (Ci * s)))%C by (apply C_eq; unfold Ci, Cmul; cbn [fst snd]; ring). exact H3.
Qed.
Lemma qam_turn k mp : swap_sym k -> qam_mapping k = Ok mp -> forall s, In s (coded_symbols mp) -> In (Ci * s)%C (coded_symbols mp).
Proof.
  intros Hk Hm s. assert (H1 : (1 <= k)%nat) by (destruct Hk as [[]|[]]; lia). rewrite !(qam_coded_alphabet k mp H1 Hm), !alphabet_in.
  intros [z [Hz ->]]. destruct (qam_swap k _ Hk (symbols_conj k z H1 Hz)) as [_ Hin]. unfold zconj in Hin. cbn [fst snd] in Hin.
  eexists. split; [exact Hin|]. apply C_eq; unfold Cscal, ZtoC, Ci, Cmul; cbn [fst snd]; rewrite ?opp_IZR; ring.
Qed.
Lemma psk_turn k mp : (2 <= k)%nat -> psk_mapping k = Ok mp -> forall s, In s (coded_symbols mp) -> In (Ci * s)%C (coded_symbols mp).
Proof.
  intros Hk Hm s. destruct (psk_mapping_ok k ltac:(lia)) as [mp' [Hm' Hok]]. rewrite Hm in Hm'. injection Hm' as <-. destruct Hok as [Hp _].
  intros H. apply (Permutation_in _ Hp) in H. apply (Permutation_in _ (Permutation_sym Hp)). unfold cal_symbols_psk in *. apply in_map_iff in H as [i [<- Hi]]. apply in_seq in Hi.
  destruct k as [|[|k]]; [lia|lia|]. assert (E4 : (2 ^ S (S k) = 4 * 2 ^ k)%nat) by (cbn; lia). pose proof (Nat.pow_nonzero 2 k ltac:(lia)) as Hpow.
  assert (P4 : INR (2 ^ S (S k)) = 4 * INR (2 ^ k)) by (rewrite E4, mult_INR; cbn [INR]; lra). assert (Pp : 0 < INR (2 ^ k)) by (apply lt_0_INR; lia).
  assert (A : forall j (b : bool), (j + (if b then 2 ^ S (S k) else 0) = i + 2 ^ k)%nat -> (Ci * Cexpi (psk_phase (2 ^ S (S k)) i))%C = Cexpi (psk_phase (2 ^ S (S k)) j)).
  { intros j b Ej. pose proof (psk_phase_eq (S (S k)) i) as Q1. pose proof (psk_phase_eq (S (S k)) j) as Q2. rewrite Nat.add_0_l in Q1, Q2. rewrite Q1, Q2, P4. clear Q1 Q2.
    assert (ER : INR j = INR i + INR (2 ^ k) - (if b then 4 * INR (2 ^ k) else 0)).
    { apply (f_equal INR) in Ej. rewrite !plus_INR in Ej. destruct b; [rewrite P4 in Ej|change (INR 0) with 0 in Ej]; lra. }
    rewrite ER. match goal with |- (_ * Cexpi (?c + _))%C = _ => set (c0 := c) end.
    transitivity (Cexpi (c0 + 2 * PI * INR i / (4 * INR (2 ^ k)) + PI / 2)).
    - rewrite (Cexpi_add _ (PI / 2)). unfold Cexpi at 3. rewrite cos_PI2, sin_PI2. unfold Ci. cring.
    - rewrite <- (Cexpi_turn _ (if b then -1 else 0)). f_equal. destruct b; field; lra. }
  apply in_map_iff. destruct (lt_dec (i + 2 ^ k) (2 ^ S (S k))) as [Hlt|Hge].
  - exists (i + 2 ^ k)%nat. split; [symmetry; apply (A _ false); lia|apply in_seq; lia].
  - exists (i + 2 ^ k - 2 ^ S (S k))%nat. split; [symmetry; apply (A _ true); lia|apply in_seq; lia].
Qed.
Lemma alphabet_turn k mp : (qam_mapping k = Ok mp /\ (Nat.even k = true /\ (2 <= k)%nat \/ Nat.odd k = true /\ (5 <= k)%nat)) \/ (psk_mapping k = Ok mp /\ (2 <= k)%nat) ->
  forall q s, In s (coded_symbols mp) -> In (quarter q * s)%C (coded_symbols mp).
Proof.
  intros [[Hm Hk]|[Hm Hk]] q s; apply (turn_iter (fun s => In s (coded_symbols mp))); [exact (qam_turn k mp Hk Hm)|exact (psk_turn k mp Hk Hm)].
Qed.
Lemma evm_self : forall rx, Forall (fun r => r <> []) rx -> rowwise evm_row rx rx = Ok (repeat (Some 0) (length rx)).
Proof.
  intros rx H. unfold rowwise. rewrite Nat.eqb_refl. cbn [negb]. induction H as [|r rx Hr H IH]; [reflexivity|]. cbn [combine mapM length repeat fst snd].
  assert (E : evm_row r r = Ok (Some 0)).
  { unfold evm_row. rewrite Nat.eqb_refl. cbn [negb]. destruct r as [|a r]; [contradiction|]. f_equal. f_equal. rewrite <- sqrt_0. f_equal. unfold Rmean.
    assert (Z : forall l : list C, Rsum (map (fun p => Cnorm2 (fst p - snd p)%C) (combine l l)) = 0).
    { induction l as [|b l IHl]; [reflexivity|]. cbn [combine map]. rewrite Rsum_cons, IHl. cbn [fst snd]. unfold Cnorm2, Csub. cbn. ring. }
    rewrite Z. unfold Rdiv. ring. }
  rewrite E. cbn [bind]. rewrite IH. reflexivity.
Qed.
Lemma nearest_self cs s d : In s cs -> nearest cs s d -> d = s.
Proof.
  intros Hs [_ H]. specialize (H s Hs). assert (E : Cabs (s - s)%C = 0) by (unfold Cabs; replace (Cnorm2 (s - s)%C) with 0 by (unfold Cnorm2, Csub; cbn; ring); apply sqrt_0).
  rewrite E in H. unfold Cabs in H. pose proof (sqrt_pos (Cnorm2 (s - d)%C)). assert (Z : sqrt (Cnorm2 (s - d)%C) = 0) by lra. apply sqrt_eq_0 in Z; [|apply Cnorm2_nonneg].
  apply Cnorm2_zero in Z. apply C_eq; [apply (f_equal fst) in Z|apply (f_equal snd) in Z]; cbn in Z; lra.
Qed.
Lemma all_some_zero (l : list R) n : length l = n -> (forall m s, nth_error l m = Some s -> s = 0) -> map Some l = repeat (Some 0) n.
Proof.
  intros <-. induction l as [|a l IH]; intros H; [reflexivity|]. cbn [map length repeat]. rewrite (H 0%nat a eq_refl). f_equal. apply IH. intros m s E. exact (H (S m) s E).
Qed.
Lemma link_rates k mp tx rx N : (1 <= k <= 16)%nat -> lib_mapping k mp -> (0 < N)%nat -> rect rx N -> over (coded_symbols mp) rx ->
  signal_sync_and_adjust tx rx false = Ok (rx, rx) ->
  cal_ser mp tx rx false = Ok (repeat (Some 0) (length rx)) /\ cal_ber mp tx rx false = Ok (repeat (Some 0) (length rx)) /\
  cal_evm mp tx rx false false = Ok (repeat (Some 0) (length rx)).
Proof.
  intros Hk Hm HN Hr Ho Hs. destruct (rates k mp Hk Hm tx rx false rx rx N Hs HN Hr Hr eq_refl Ho) as (ser & ber & E1 & E2 & L1 & L2 & H).
  rewrite E1, E2. assert (Z : forall m r, nth_error rx m = Some r -> nth_error ser m = Some 0 /\ nth_error ber m = Some 0).
  { intros m r Er. destruct (H m r r Er Er) as (s & b & dec & A1 & A2 & A3 & _ & _ & _ & _ & A4 & A5).
    assert (dec = r); [|rewrite A1, A2; split; f_equal; [now apply A4|now apply A5]].
    unfold over in Ho. rewrite Forall_forall in Ho. specialize (Ho r (nth_error_In _ _ Er)). clear - A3 Ho. induction A3 as [|x d r dec Hn A3 IH]; [reflexivity|]. inversion Ho; subst.
    f_equal; [eapply nearest_self; eassumption|now apply IH]. }
  split; [|split].
  - f_equal. apply all_some_zero; [exact L1|]. intros m s E. destruct (nth_error_lt_Some rx m ltac:(apply nth_error_Some_lt in E; lia)) as [r Er]. destruct (Z m r Er) as [Z1 _]. congruence.
  - f_equal. apply all_some_zero; [exact L2|]. intros m s E. destruct (nth_error_lt_Some rx m ltac:(apply nth_error_Some_lt in E; lia)) as [r Er]. destruct (Z m r Er) as [_ Z1]. congruence.
  - unfold cal_evm. rewrite Hs. cbn [bind fst snd]. apply evm_self. unfold rect in Hr. rewrite Forall_forall in Hr |- *. intros r Ir ->. specialize (Hr _ Ir). cbn in Hr. lia.
Qed.
Lemma arrives_over cs tx rx modes n : (0 < n)%nat -> rect tx n -> (forall q s, In s cs -> In (quarter q * s)%C cs) -> over cs tx ->
  Forall2 (fun i r => exists p q, arrives tx i p q r) modes rx -> over cs rx.
Proof.
  intros Hn Hrect Hc Ho Hl. unfold over in *. rewrite Forall_forall in Ho. unfold rect in Hrect. rewrite Forall_forall in Hrect. induction Hl as [|i r modes rx (p & q & Hq & (t & Et & H2 & Hp) & _) Hl IH]; constructor; [|exact IH].
  apply nth_error_In in Et. specialize (Ho _ Et). rewrite Forall_forall in Ho |- *. intros s Is. destruct (In_nth_error _ _ Is) as [k Ek]. pose proof (nth_error_Some_lt _ _ _ Ek) as Lk.
  rewrite (Hp k Lk) in Ek. apply nth_error_In in Ek. unfold turned in Ek. apply in_map_iff in Ek as [s0 [<- H0]]. apply Hc, Ho, H0.
Qed.
Lemma link_no_errors k mp tx rx modes n N e : (k <= 16)%nat ->
  (qam_mapping k = Ok mp /\ (Nat.even k = true /\ (2 <= k)%nat \/ Nat.odd k = true /\ (5 <= k)%nat)) \/ (psk_mapping k = Ok mp /\ (2 <= k)%nat) ->
  (0 < n)%nat -> rect tx n -> rect rx N -> over (coded_symbols mp) tx -> Forall all_nonzero tx -> Forall no_self_copy tx -> Forall (fun t => seq_energy t = e) tx ->
  NoDup modes -> Forall2 (fun i r => exists p q, arrives tx i p q r) modes rx ->
  cal_ser mp tx rx false = Ok (repeat (Some 0) (length rx)) /\ cal_ber mp tx rx false = Ok (repeat (Some 0) (length rx)) /\
  cal_evm mp tx rx false false = Ok (repeat (Some 0) (length rx)).
Proof.
  intros H16 Hk Hn Ht Hr Ho Hnz Hns He Hnd Hl. pose proof (link_sync tx rx modes n e Hn Ht Hnz Hns He Hnd Hl) as Hs.
  destruct rx as [|r0 rx0] eqn:Erx.
  - unfold cal_ser, cal_ber, cal_evm. rewrite Hs. cbn. now repeat split.
  - rewrite <- Erx in *. assert (HN : (0 < N)%nat).
    { assert (I : In r0 rx) by (rewrite Erx; now left). clear Erx. unfold rect in Ht, Hr. rewrite Forall_forall in Ht, Hr. specialize (Hr r0 I). clear - I Hl Ht Hn Hr. induction Hl as [|i r modes rx (p & q & _ & (t & Et & H2 & _) & _) Hl IH]; [destruct I|].
      destruct I as [->|I]; [|now apply IH]. apply nth_error_In in Et. specialize (Ht _ Et). lia. }
    assert (H1 : (1 <= k)%nat) by (destruct Hk as [[_ [[_ H]|[_ H]]]|[_ H]]; lia).
    apply (link_rates k mp tx rx N); try assumption; [lia|destruct Hk as [[Hm _]|[Hm _]]; [now left|now right]|].
    apply (arrives_over _ tx rx modes n Hn Ht); try assumption. exact (alphabet_turn k mp Hk).
Qed.
(** ** an alphabet that is not kept by a quarter turn *)
Lemma n_errors_all cs : cs <> [] -> forall r, (forall s, In s r -> ~ In s cs) -> n_errors (map (dsym cs) r) r = length r.
Proof.
  intros Hne. induction r as [|x r IH]; intros H; [reflexivity|]. unfold n_errors in *. cbn [map combine filter fst snd].
  destruct (Ceq_dec (dsym cs x) x) as [E|E]; [exfalso; apply (H x); [now left|rewrite <- E; now apply dsym_in]|]. cbn [length]. f_equal. apply IH. intros s Is. apply H. now right.
Qed.
Lemma xor_self (l : list bool) : count_xor l l = Ok 0%nat.
Proof. unfold count_xor. rewrite Nat.eqb_refl. cbn [negb]. f_equal. induction l as [|b l IH]; [reflexivity|]. cbn [combine filter fst snd]. rewrite xorb_nilpotent. exact IH. Qed.
Lemma rowwise_same {A B D} (f : A -> B -> result D) v : forall a b, Forall2 (fun x y => f x y = Ok v) a b -> rowwise f a b = Ok (repeat v (length b)).
Proof.
  intros a b H. unfold rowwise. assert (L : length a = length b) by (induction H; cbn; congruence). rewrite L, Nat.eqb_refl. cbn [negb]. clear L.
  induction H as [|x y a b E H IH]; [reflexivity|]. cbn [combine mapM length repeat fst snd]. rewrite E. cbn [bind]. rewrite IH. reflexivity.
Qed.
Lemma link_off k mp tx rx N : (1 <= k <= 16)%nat -> lib_mapping k mp -> (0 < N)%nat -> rect rx N -> (forall r s, In r rx -> In s r -> ~ In s (coded_symbols mp)) ->
  signal_sync_and_adjust tx rx false = Ok (rx, rx) ->
  cal_ser mp tx rx false = Ok (repeat (Some 1) (length rx)) /\ cal_ber mp tx rx false = Ok (repeat (Some 0) (length rx)).
Proof.
  intros Hk Hm HN Hr Ho Hs. destruct (lib_facts k mp ltac:(lia) Hm) as (_ & _ & _ & Hne). unfold cal_ser, cal_ber. rewrite Hs. cbn [bind fst snd]. split.
  - rewrite signal_decide_ok by exact Hne. cbn [bind]. rewrite (rowwise_same count_diff N).
    + cbn [bind]. destruct rx as [|r rx]; [reflexivity|]. f_equal. inversion Hr; subst. cbn [map row_len]. rewrite !map_length. unfold ratio. destruct (Nat.eqb_spec (length r) 0); [lia|].
      assert (INR (length r) <> 0) by (apply not_0_INR; lia). generalize (length (r :: rx)). intros m. induction m as [|m IH]; [reflexivity|]. cbn [repeat map]. rewrite IH. f_equal. f_equal. field. assumption.
    + clear Hs. induction Hr as [|r rx Er Hr IH]; [constructor|]. cbn [map]. constructor; [|apply IH; intros; eapply Ho; [right|]; eassumption].
      rewrite count_diff_ok by apply map_length. rewrite n_errors_all; [now rewrite Er|exact Hne|]. intros s Is. apply (Ho r s); [now left|exact Is].
  - rewrite (demodulate_any mp k) by assumption. cbn [bind]. match goal with |- context [rowwise count_xor ?l _] => set (b := l) end. rewrite (rowwise_same count_xor 0%nat).
    + cbn [bind]. assert (Lb : length b = length rx) by (unfold b; apply map_length). destruct rx as [|r rx]; [rewrite Lb; reflexivity|]. rewrite Lb. f_equal.
      assert (Rb : (0 < row_len b)%nat). { unfold b. cbn [map row_len]. pose proof (bits_length k mp Hk r) as E. cbv zeta in E. rewrite E. inversion Hr; subst. nia. }
      unfold ratio. destruct (Nat.eqb_spec (row_len b) 0); [lia|]. generalize (length (r :: rx)). intros m. induction m as [|m IH]; [reflexivity|]. cbn [repeat map]. rewrite IH. f_equal. f_equal.
      change (INR 0) with 0. unfold Rdiv. ring.
    + induction b as [|x b IH]; constructor; [apply xor_self|exact IH].
Qed.
Lemma bpsk_points mp s : qam_mapping 1 = Ok mp -> In s (coded_symbols mp) -> fst s <> 0 /\ snd s = 0.
Proof.
  intros Hm H. rewrite (qam_coded_alphabet 1 mp (le_n 1) Hm), alphabet_in in H. destruct H as [z [Hz ->]]. pose proof (inv_scale_pos 1 (le_n 1)).
  change (cal_symbols_qam 1) with [(-1, 0); (1, 0)]%Z in Hz. destruct Hz as [<-|[<-|[]]]; unfold Cscal, ZtoC; cbn [fst snd]; split; lra.
Qed.
Lemma link_bpsk mp tx rx modes n N e : qam_mapping 1 = Ok mp -> (0 < n)%nat -> rect tx n -> rect rx N -> over (coded_symbols mp) tx -> Forall no_self_copy tx ->
  Forall (fun t => seq_energy t = e) tx -> NoDup modes -> Forall2 (fun i r => exists p q, (q = 1 \/ q = 3)%nat /\ arrives tx i p q r) modes rx ->
  cal_ser mp tx rx false = Ok (repeat (Some 1) (length rx)) /\ cal_ber mp tx rx false = Ok (repeat (Some 0) (length rx)).
Proof.
  intros Hm Hn Ht Hr Ho Hns He Hnd Hl.
  assert (Hnz : Forall all_nonzero tx).
  { eapply Forall_impl; [|exact Ho]. intros t Ht' s Is E. rewrite Forall_forall in Ht'. destruct (bpsk_points mp s Hm (Ht' s Is)) as [F _]. apply F. rewrite E. reflexivity. }
  assert (Hl' : Forall2 (fun i r => exists p q, arrives tx i p q r) modes rx).
  { clear - Hl. induction Hl as [|i r modes rx (p & q & _ & H) Hl IH]; constructor; [now exists p, q|exact IH]. }
  pose proof (link_sync tx rx modes n e Hn Ht Hnz Hns He Hnd Hl') as Hs.
  destruct rx as [|r0 rx0] eqn:Erx.
  - unfold cal_ser, cal_ber. rewrite Hs. cbn. now split.
  - rewrite <- Erx in *. unfold over in Ho. rewrite Forall_forall in Ho. assert (HN : (0 < N)%nat).
    { assert (I : In r0 rx) by (rewrite Erx; now left). clear Erx. unfold rect in Ht, Hr. rewrite Forall_forall in Ht, Hr. specialize (Hr r0 I). clear - I Hl' Ht Hn Hr. induction Hl' as [|i r modes rx (p & q & _ & (t & Et & H2 & _) & _) Hl IH]; [destruct I|].
      destruct I as [->|I]; [|now apply IH]. apply nth_error_In in Et. specialize (Ht _ Et). lia. }
    apply (link_off 1 mp tx rx N); try assumption; [lia|now left|]. clear Erx Hs Hl' Hr. intros r s Ir Is Ic. destruct (bpsk_points mp s Hm Ic) as [F _]. apply F. clear F Ic.
    induction Hl as [|i r' modes' rx' (p & q & Hq & _ & (t & Et & _ & Hp) & _) Hl IH]; [destruct Ir|]. inversion Hnd; subst. destruct Ir as [->|Ir]; [|now apply IH].
    apply nth_error_In in Et. specialize (Ho _ Et). rewrite Forall_forall in Ho. destruct (In_nth_error _ _ Is) as [j Ej]. rewrite (Hp j (nth_error_Some_lt _ _ _ Ej)) in Ej.
    apply nth_error_In in Ej. unfold turned in Ej. apply in_map_iff in Ej as [s0 [<- H0]]. destruct (bpsk_points mp s0 Hm (Ho _ H0)) as [_ Z]. destruct s0 as [x y]. cbn [snd] in Z. subst y.
    destruct Hq as [->| ->]; unfold quarter, Ci, Cmul; cbn [fst snd]; ring.
Qed.

(** ** concrete case *)
Ltac four d := let H := fresh in assert (H : (d = 0 \/ d = 1 \/ d = 2 \/ d = 3)%Z) by lia; destruct H as [->|[->|[->| ->]]].
Lemma link_ex :
  let a := (1, 0) in let b := (0, 1) in let c := (-1, 0) in
  signal_sync_and_adjust [[a; a; b]; [a; c; a]] [[b; (0, -1); b; b; (0, -1); b]; [b; a; a; b; a; a]] false =
  Ok ([[b; (0, -1); b; b; (0, -1); b]; [b; a; a; b; a; a]], [[b; (0, -1); b; b; (0, -1); b]; [b; a; a; b; a; a]]).
Proof.
  cbv zeta. apply (link_sync _ _ [1; 0]%nat 3 3); [lia|repeat constructor| | | | |].
  - repeat constructor; intros s H E; repeat (destruct H as [<-|H]; [apply (f_equal fst) in E as E1; apply (f_equal snd) in E; cbn in E, E1; lra|]); destruct H.
  - repeat constructor; intros s [ur ui] Hs _ H; cbn [length] in Hs, H; assert (s = 1 \/ s = 2)%nat as [->| ->] by lia;
      pose proof (H 0%nat ltac:(lia)) as H0; pose proof (H 1%nat ltac:(lia)) as H1; pose proof (H 2%nat ltac:(lia)) as H2;
      cbn in H0, H1, H2; unfold Cmul in H0, H1, H2; cbn [fst snd] in H0, H1, H2; apply (f_equal fst) in H0 as F0; apply (f_equal fst) in H1 as F1; apply (f_equal fst) in H2 as F2;
      apply (f_equal snd) in H0; apply (f_equal snd) in H1; apply (f_equal snd) in H2; cbn [fst snd] in *; lra.
  - apply Forall_cons; [|apply Forall_cons; [|apply Forall_nil]]; unfold seq_energy, energy_at; cbn [length]; rewrite !rsum_S, rsum_0; rewrite !Z.add_0_l, !ext_nth; unfold Cnorm2; cbn; lra.
  - repeat constructor; cbn; intuition lia.
  - assert (Occ : forall r t, length r = 6%nat -> length t = 3%nat ->
       (forall i ur ui, (i < 4)%nat -> nth i r C0 = ((ur, ui) * nth 0 t C0)%C -> nth (i + 1) r C0 = ((ur, ui) * nth 1 t C0)%C -> nth (i + 2) r C0 = ((ur, ui) * nth 2 t C0)%C -> False) ->
       forall d u, Cnorm2 u = 1 -> ~ occurs_at r t d u).
    { intros r t Lr Lt H d [ur ui] _ [Hd Ho]. rewrite Lr, Lt in *. pose proof (Ho 0%nat ltac:(lia)) as H0. pose proof (Ho 1%nat ltac:(lia)) as H1. pose proof (Ho 2%nat ltac:(lia)) as H2.
      apply (H (Z.to_nat d) ur ui); [lia| | |]; rewrite <- !ext_nth; [etransitivity; [|exact H0]|etransitivity; [|exact H1]|etransitivity; [|exact H2]]; f_equal; lia. }
    constructor; [|constructor; [|constructor]].
    + exists 0%Z, 1%nat. split; [lia|]. split.
      * eexists. split; [reflexivity|]. split; [cbn; lia|]. intros j Hj. cbn [length] in Hj.
        do 6 (destruct j as [|j]; [match goal with |- context [Z.to_nat ?x] => let v := eval vm_compute in (Z.to_nat x) in change (Z.to_nat x) with v end; cbn; f_equal; apply C_eq; cbn; lra|]). lia.
      * intros i' t' Hi Et. destruct i' as [|[|i']]; [|lia|destruct i'; discriminate]. injection Et as <-. apply Occ; [reflexivity|reflexivity|].
        intros i ur ui Hi4. do 4 (destruct i as [|i]; [cbn; unfold Cmul; cbn [fst snd]; intros F0 F1 F2; apply (f_equal fst) in F0 as G0; apply (f_equal fst) in F1 as G1; apply (f_equal fst) in F2 as G2;
          apply (f_equal snd) in F0; apply (f_equal snd) in F1; apply (f_equal snd) in F2; cbn [fst snd] in *; lra|]). lia.
    + exists 1%Z, 0%nat. split; [lia|]. split.
      * eexists. split; [reflexivity|]. split; [cbn; lia|]. intros j Hj. cbn [length] in Hj.
        do 6 (destruct j as [|j]; [match goal with |- context [Z.to_nat ?x] => let v := eval vm_compute in (Z.to_nat x) in change (Z.to_nat x) with v end; cbn; f_equal; apply C_eq; cbn; lra|]). lia.
      * intros i' t' Hi Et. destruct i' as [|[|i']]; [lia| |destruct i'; discriminate]. injection Et as <-. apply Occ; [reflexivity|reflexivity|].
        intros i ur ui Hi4. do 4 (destruct i as [|i]; [cbn; unfold Cmul; cbn [fst snd]; intros F0 F1 F2; apply (f_equal fst) in F0 as G0; apply (f_equal fst) in F1 as G1; apply (f_equal fst) in F2 as G2;
          apply (f_equal snd) in F0; apply (f_equal snd) in F1; apply (f_equal snd) in F2; cbn [fst snd] in *; lra|]). lia.
Qed.
