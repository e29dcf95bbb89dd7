(** Synchronisation and error counting of a signal with bounded disturbance. *)
From Coq Require Import List ZArith NArith Arith Bool Permutation Lia Reals Lra.
From Verif Require Import Common.Py Common.ListX Common.Cplx Common.SumX Model.Constellation Model.Sync Model.Quality
  Spec.Geometry Spec.Seq Spec.Metrics Spec.Link Proofs.AdjustP Proofs.CorrP Proofs.SyncP Proofs.SyncQ Proofs.QualityP Proofs.LinkP.
Import ListNotations.
Local Open Scope R_scope.

Lemma Cabs_csum n f : Cabs (csum n f) <= rsum n (fun k => Cabs (f k)).
Proof.
  induction n as [|n IH]; [rewrite csum_0, rsum_0; unfold Cabs; rewrite Cnorm2_0, sqrt_0; lra|].
  rewrite csum_S, rsum_S. eapply Rle_trans; [apply Cabs_triang|]. lra.
Qed.
Lemma Cabs_zero : Cabs C0 = 0. Proof. unfold Cabs. now rewrite Cnorm2_0, sqrt_0. Qed.
Lemma F2_len {A B} (P : A -> B -> Prop) a b : Forall2 P a b -> length a = length b.
Proof. induction 1; cbn; congruence. Qed.
Lemma close_ext delta r c z : 0 <= delta -> Forall2 (fun x s => Cabs (x - s)%C <= delta) r c -> Cabs (ext r z - ext c z)%C <= delta.
Proof.
  intros Hd H. unfold ext. destruct (0 <=? z)%Z.
  2:{ replace (C0 - C0)%C with C0 by cring. rewrite Cabs_zero. exact Hd. }
  generalize (Z.to_nat z). induction H as [|x s r c E H IH]; intros [|k]; cbn [nth]; try exact E; try apply IH; replace (C0 - C0)%C with C0 by cring; rewrite Cabs_zero; exact Hd.
Qed.
Lemma corr_diff delta r c t d : 0 <= delta -> Forall2 (fun x s => Cabs (x - s)%C <= delta) r c -> Cabs (corr r t d - corr c t d)%C <= delta * abs_sum t.
Proof.
  intros Hd H. unfold corr, abs_sum.
  apply Rle_trans with (Cabs (csum (length t) (fun k => ((ext r (d + Z.of_nat k) - ext c (d + Z.of_nat k)) * Cconj (ext t (Z.of_nat k)))%C))).
  - right. apply f_equal. generalize (length t). intros n. induction n as [|n IH]; [rewrite !csum_0; cring|]. rewrite !csum_S, <- IH. ring.
  - eapply Rle_trans; [apply Cabs_csum|]. rewrite <- rsum_scal. apply rsum_le. intros k Hk. rewrite Cabs_mul, ext_nth. apply Rmult_le_compat; [apply Cabs_nonneg|apply Cabs_nonneg|now apply close_ext|].
    right. unfold Cabs. now rewrite Cnorm2_conj.
Qed.
Lemma occurs_dec c t d u : {occurs_at c t d u} + {~ occurs_at c t d u}.
Proof.
  destruct (Z_le_dec 0 d) as [H1|H1]; [|right; intros [[H _] _]; lia].
  destruct (Z_le_dec (d + Z.of_nat (length t)) (Z.of_nat (length c))) as [H2|H2]; [|right; intros [[_ H] _]; lia].
  destruct (Forall_dec (fun k => ext c (d + Z.of_nat k) = (u * ext t (Z.of_nat k))%C) (fun k => Ceq_dec _ _) (seq 0 (length t))) as [H|H]; [left|right].
  - split; [lia|]. intros k Hk. rewrite Forall_forall in H. apply H, in_seq. lia.
  - intros [_ Hk]. apply H, Forall_forall. intros k Hi. apply in_seq in Hi. apply Hk. lia.
Qed.
Lemma last_nonzero (r : list C) : (forall k, nth k r C0 = C0) \/ exists m, (m < length r)%nat /\ nth m r C0 <> C0 /\ forall k, (m < k)%nat -> nth k r C0 = C0.
Proof.
  induction r as [|a r [IH|(m & Hm & Hn & Hk)]].
  - left. intros [|k]; reflexivity.
  - destruct (Ceq_dec a C0) as [->|Ha].
    + left. intros [|k]; [reflexivity|apply IH].
    + right. exists 0%nat. split; [cbn; lia|]. split; [exact Ha|]. intros [|k] H; [lia|]. apply IH.
  - right. exists (S m). split; [cbn; lia|]. split; [exact Hn|]. intros [|k] H; [lia|]. cbn [nth]. apply Hk. lia.
Qed.
Lemma corr_nonzero r t0 t d : corr r t d <> C0 -> t0 <> [] -> all_nonzero t0 -> exists d', corr r t0 d' <> C0.
Proof.
  intros Hc H0 N0. destruct (last_nonzero r) as [Hz|(m & Hm & Hn & Hk)].
  - exfalso. apply Hc. unfold corr. apply csum_zero. intros k _. unfold ext at 1. destruct (0 <=? _)%Z; rewrite ?Hz; cring.
  - exists (Z.of_nat m). destruct t0 as [|a t0]; [contradiction|]. unfold corr. rewrite (csum_single _ _ 0%nat).
    + rewrite Z.add_0_r, ext_nth. change (ext (a :: t0) (Z.of_nat 0)) with a. intros Z. apply (f_equal Cnorm2) in Z. rewrite Cnorm2_mul, Cnorm2_conj, Cnorm2_0 in Z.
      apply Rmult_integral in Z as [Z|Z]; apply Cnorm2_zero in Z; [contradiction|apply (N0 a); [now left|exact Z]].
    + cbn [length]. lia.
    + intros k H1 H2. rewrite <- Nat2Z.inj_add, ext_nth, Hk by lia. cring.
Qed.
Lemma other_turn q ii e : (q < 4)%nat -> (ii < 4)%nat -> ii <> q -> 0 <= e -> fst (Cconj (quarter ii) * Cscal e (quarter q))%C <= 0.
Proof.
  intros Hq Hi Hne He. do 4 (destruct q as [|q]; [do 4 (destruct ii as [|ii]; [try (exfalso; lia); cbn; lra|]); lia|]). lia.
Qed.
Lemma fst_diff a b v : Cabs (a - b)%C <= v -> fst a <= fst b + v /\ fst b <= fst a + v.
Proof.
  intros H. pose proof (fst_abs (a - b)%C) as A. pose proof (fst_abs (- (a - b))%C) as B. assert (E : Cabs (- (a - b))%C = Cabs (a - b)%C) by (unfold Cabs, Cnorm2; cbn; f_equal; ring).
  rewrite E in B. cbn in A, B. lra.
Qed.
Lemma Cabs_diff a b v : Cabs (a - b)%C <= v -> Cabs a <= Cabs b + v /\ Cabs b <= Cabs a + v.
Proof.
  intros H. pose proof (Cabs_triang (a - b) b) as A. pose proof (Cabs_triang (- (a - b)) a) as B. assert (E : Cabs (- (a - b))%C = Cabs (a - b)%C) by (unfold Cabs, Cnorm2; cbn; f_equal; ring).
  rewrite E in B. replace (a - b + b)%C with a in A by ring. replace (- (a - b) + a)%C with b in B by ring. lra.
Qed.
(** one mode *)
Lemma noisy_sync t c r p q rho delta : t <> [] -> all_nonzero t -> (q < 4)%nat -> (2 * length t <= length c)%nat -> periodic_copy t p q c ->
  (forall d, ~ occurs_at c t d (quarter q) -> Cabs (corr c t d) <= rho) -> 0 <= rho -> 0 <= delta -> Forall2 (fun x s => Cabs (x - s)%C <= delta) r c ->
  rho + 2 * (delta * abs_sum t) < seq_energy t ->
  (exists d, corr r t d <> C0) /\ exists acm, sync_and_adjust t r AdjTx = Ok (c, r, acm) /\ seq_energy t - delta * abs_sum t <= acm.
Proof.
  intros Ht Nt Hq Hlen Hp Hrho R0 D0 Hcl Hm. assert (HL : (0 < length t)%nat) by (destruct t; [contradiction|cbn; lia]).
  assert (Lrc : length r = length c) by (eapply F2_len; exact Hcl). assert (Hr : r <> []) by (intros ->; cbn in Lrc; lia).
  pose proof (fun d => corr_diff delta r c t d D0 Hcl) as Df. set (eps := delta * abs_sum t) in *. pose proof (own_occurs t c p q HL Hlen Hp) as Ho. set (d0 := (p mod Z.of_nat (length t))%Z) in *.
  assert (E0 : 0 <= eps) by (eapply Rle_trans; [apply Cabs_nonneg|apply (Df 0%Z)]). pose proof (seq_energy_pos t Ht Nt) as P0.
  assert (Cd : forall d, occurs_at c t d (quarter q) -> Cabs (corr c t d) = seq_energy t).
  { intros d H. rewrite (occurs_corr _ _ _ _ H). apply Cabs_scal_unit; [lra|apply quarter_unit]. }
  assert (A0 : seq_energy t - eps <= Cabs (corr r t d0)).
  { pose proof (Cabs_diff _ _ _ (Df d0)) as [_ H]. rewrite (Cd d0 Ho) in H. lra. }
  assert (N0 : corr r t d0 <> C0) by (intros E; rewrite E, Cabs_zero in A0; lra).
  split; [now exists d0|]. destruct (proj2 (c15 r t Hr Ht) d0 N0) as (ix & ii & acm & Ef & Hii & _ & _ & Hmax & [d Hd] & Hall).
  assert (Ta : forall i d', fst (corr r (turned i t) d') <= fst (corr c (turned i t) d') + eps /\ fst (corr c (turned i t) d') <= fst (corr r (turned i t) d') + eps).
  { intros i d'. apply fst_diff. rewrite !corr_turned. replace (Cconj (quarter i) * corr r t d' - Cconj (quarter i) * corr c t d')%C with (Cconj (quarter i) * (corr r t d' - corr c t d'))%C by ring.
    rewrite Cabs_mul. unfold Cabs at 1. rewrite Cnorm2_conj, quarter_unit, sqrt_1, Rmult_1_l. apply Df. }
  assert (B0 : seq_energy t - eps <= acm).
  { specialize (Hall q d0 Hq). destruct (Ta q d0) as [_ H]. rewrite (corr_turned c), (occurs_corr _ _ _ _ Ho) in H.
    replace (Cconj (quarter q) * Cscal (seq_energy t) (quarter q))%C with (Cscal (seq_energy t) (Cconj (quarter q) * quarter q)%C) in H by cring. rewrite quarter_conj in H by exact Hq. cbn in H. lra. }
  assert (Oc : forall d', {occurs_at c t d' (quarter q)} + {~ occurs_at c t d' (quarter q)}).
  { intros d'. apply occurs_dec. }
  assert (Ox : occurs_at c t ix (quarter q)).
  { destruct (Oc ix) as [H|H]; [exact H|exfalso]. specialize (Hrho ix H). specialize (Hmax d0). destruct (Cabs_diff _ _ _ (Df ix)) as [H1 _]. lra. }
  assert (Ei : ii = q).
  { destruct (Nat.eq_dec ii q) as [|Hne]; [assumption|exfalso]. rewrite Hd in B0. destruct (Ta ii d) as [H _]. destruct (Oc d) as [Hod|Hod].
    - rewrite (corr_turned c), (occurs_corr _ _ _ _ Hod) in H. pose proof (other_turn q ii (seq_energy t) Hq Hii Hne ltac:(lra)). lra.
    - specialize (Hrho d Hod). pose proof (fst_abs (corr c (turned ii t) d)) as H1. rewrite Cabs_corr_turned in H1. lra. }
  subst ii. exists acm. split; [|exact B0]. unfold sync_and_adjust. rewrite Ef. cbn [bind].
  destruct (Nat.ltb_spec (length r) (length t)) as [H1|H1]; [lia|]. destruct (Nat.ltb_spec (length t) (length r)) as [H2|H2]; [|lia].
  destruct (c12_extend (turned q t) r ix (turned_ne q t Ht) Hr) as (t1 & r1 & Ea & Hlt & _).
  rewrite Ea. cbn [bind]. rewrite turned_length in Hlt. destruct (Hlt H2) as (-> & Hdr & Hge & Hiff).
  destruct Ox as [[X1 X2] X3].
  assert (Ht1 : length t1 = length r) by (apply Hiff; unfold fits; split; [lia|]; right; right; lia).
  assert (t1 = c); [|subst t1; reflexivity].
  apply nth_error_ext_lt; [lia|]. intros k Hk. rewrite Hdr by assumption. rewrite turned_length. set (j := ((Z.of_nat k - ix) mod Z.of_nat (length t))%Z).
  pose proof (Z.mod_pos_bound (Z.of_nat k - ix) (Z.of_nat (length t)) ltac:(lia)) as Hj. fold j in Hj.
  destruct (nth_error_lt_Some t (Z.to_nat j) ltac:(lia)) as [s Es]. unfold turned. rewrite nth_error_map, Es. cbn [option_map].
  destruct (nth_error_lt_Some c k ltac:(lia)) as [x Ex]. rewrite Ex. f_equal. specialize (X3 (Z.to_nat j) ltac:(lia)). rewrite (ext_in _ _ _ Es) in X3. rewrite <- X3.
  rewrite <- (ext_in _ _ _ Ex). rewrite !(periodic_ext t p q c) by (assumption || lia). f_equal. unfold per. f_equal. f_equal. rewrite Z2Nat.id by lia. unfold j.
  rewrite Zminus_mod, Zplus_mod, Zmod_mod, <- Zplus_mod, <- Zminus_mod. f_equal. lia.
Qed.
Lemma noisy_other t' c r rho delta s acm : t' <> [] -> all_nonzero t' -> r <> [] -> (exists d, corr r t' d <> C0) -> (forall d, Cabs (corr c t' d) <= rho) -> 0 <= delta ->
  Forall2 (fun x s => Cabs (x - s)%C <= delta) r c -> sync_and_adjust t' r AdjTx = Ok (s, acm) -> acm <= rho + delta * abs_sum t'.
Proof.
  intros Ht Nt Hr [d0 H0] Hrho D0 Hcl E. destruct (sync_acm _ _ _ _ E) as (ix & y & ii & F). destruct (corr_of _ _ _ _ _ _ _ Ht Hr H0 F) as [[d ->] _].
  eapply Rle_trans; [apply fst_abs|]. rewrite Cabs_corr_turned. destruct (Cabs_diff _ _ _ (corr_diff delta r c t' d D0 Hcl)) as [H _]. specialize (Hrho d). lra.
Qed.
Lemma noisy_link tx rx clean modes n e B rho delta : (0 < n)%nat -> rect tx n -> Forall all_nonzero tx -> Forall (fun t => seq_energy t = e /\ abs_sum t <= B) tx ->
  0 <= rho -> 0 <= delta -> rho + 2 * (delta * B) < e -> NoDup modes -> Forall2 (fun i c => exists p q, arrives_apart tx i p q rho c) modes clean -> close delta rx clean ->
  signal_sync_and_adjust tx rx false = Ok (clean, rx).
Proof.
  intros Hn Hrect Hnz He R0 D0 Hm Hnd Hl Hcl. rewrite Forall_forall in Hnz, He. unfold rect in Hrect. rewrite Forall_forall in Hrect.
  assert (Ne : forall t, In t tx -> t <> []) by (intros t It ->; specialize (Hrect _ It); cbn in Hrect; lia).
  pose proof (F2_len _ _ _ Hl) as Lm. pose proof (F2_len _ _ _ Hcl) as Lc.
  assert (At : forall j i c, nth_error modes j = Some i -> nth_error clean j = Some c -> exists p q, arrives_apart tx i p q rho c).
  { clear - Hl. induction Hl; intros [|j] i c; cbn; try discriminate; [|apply IHHl]. intros E1 E2. injection E1 as <-. injection E2 as <-. assumption. }
  assert (Ct : forall j r, nth_error rx j = Some r -> exists c, nth_error clean j = Some c /\ Forall2 (fun x s => Cabs (x - s)%C <= delta) r c).
  { clear - Hcl. unfold close in Hcl. induction Hcl; intros [|j] r; cbn; try discriminate; [|apply IHHcl]. intros E. injection E as <-. eexists. split; [reflexivity|assumption]. }
  assert (Bd : forall t, In t tx -> delta * abs_sum t <= delta * B) by (intros t It; apply Rmult_le_compat_l; [exact D0|apply (He t It)]).
  assert (Own : forall j i r, nth_error modes j = Some i -> nth_error rx j = Some r -> exists c t acm, nth_error clean j = Some c /\ nth_error tx i = Some t /\
            r <> [] /\ (exists d, corr r t d <> C0) /\ sync_and_adjust t r AdjTx = Ok (c, r, acm) /\ e - delta * B <= acm /\
            Forall2 (fun x s => Cabs (x - s)%C <= delta) r c /\ forall i' t', i' <> i -> nth_error tx i' = Some t' -> forall d, Cabs (corr c t' d) <= rho).
  { intros j i r Ei Er. destruct (Ct j r Er) as (c & Ec & Hc). destruct (At _ _ _ Ei Ec) as (p & q & Hq & (t & Et & H2 & Hp & Hrho) & Hno).
    pose proof (nth_error_In _ _ Et) as It. destruct (He _ It) as [Ee _]. specialize (Bd _ It).
    destruct (noisy_sync t c r p q rho delta (Ne _ It) (Hnz _ It) Hq H2 Hp Hrho R0 D0 Hc ltac:(lra)) as (Hd & acm & Es & Ha).
    exists c, t, acm. split; [exact Ec|]. split; [exact Et|]. split; [|split; [exact Hd|split; [exact Es|split; [lra|split; [exact Hc|exact Hno]]]]].
    apply F2_len in Hc. intros ->. specialize (Hrect _ It). cbn in Hc. lia. }
  assert (Hlen : (length rx <= length tx)%nat).
  { rewrite Lc, <- Lm, <- (seq_length (length tx) 0). apply NoDup_incl_length; [exact Hnd|]. intros i Hi. apply In_nth_error in Hi as [j Ej].
    destruct (nth_error rx j) as [r|] eqn:Er; [|apply nth_error_None in Er; apply nth_error_Some_lt in Ej; lia].
    destruct (Own _ _ _ Ej Er) as (c & t & acm & _ & Et & _). apply in_seq. apply nth_error_Some_lt in Et. lia. }
  assert (Tot : forall t r, In t tx -> In r rx -> t <> [] /\ r <> [] /\ exists d, corr r t d <> C0).
  { intros t r It Ir. split; [now apply Ne|]. apply In_nth_error in Ir as [j Ej].
    destruct (nth_error modes j) as [i|] eqn:Ei; [|apply nth_error_None in Ei; apply nth_error_Some_lt in Ej; lia].
    destruct (Own _ _ _ Ei Ej) as (c & t0 & acm & _ & Et0 & Hr & [d Hd] & _). split; [exact Hr|]. eapply corr_nonzero; [exact Hd|now apply Ne|now apply Hnz]. }
  destruct (c16_ok tx rx Hlen Tot) as (ts & rs & E). rewrite E.
  destruct (c16 _ _ _ _ E) as (ms & L1 & L2 & L3 & Nd & M).
  assert (Step : forall j, (j < length rx)%nat -> firstn j ms = firstn j modes -> nth_error ms j = nth_error modes j /\
            nth_error ts j = nth_error clean j /\ nth_error rs j = nth_error rx j).
  { intros j Hj Hf. destruct (nth_error_lt_Some ms j ltac:(lia)) as [i Ei]. destruct (nth_error_lt_Some modes j ltac:(lia)) as [i0 Ei0].
    destruct (M j i Ei) as (r & t & r' & Er & Et & Er' & ti & acm & Eti & Es & Bf). destruct (Own _ _ _ Ei0 Er) as (c & t0 & acm0 & Ec & Et0 & Hr & Hd & Es0 & Ha0 & Hc & Hno).
    pose proof (nth_error_In _ _ Eti) as Iti. pose proof (nth_error_In _ _ Et0) as It0.
    assert (F0 : (i0 < length tx)%nat /\ ~ In i0 (firstn j ms)) by (split; [eapply nth_error_Some_lt; eassumption|rewrite Hf; now apply nodup_nth_firstn]).
    destruct (Bf i0 t0 F0 Et0) as (p' & acm' & Es' & Ha). rewrite Es0 in Es'. injection Es' as <- <-.
    assert (Hi : i = i0).
    { destruct (Nat.eq_dec i i0) as [|Dn]; [assumption|exfalso]. destruct (Tot ti r Iti (nth_error_In _ _ Er)) as (_ & _ & Hdi).
      pose proof (noisy_other ti c r rho delta _ _ (Ne _ Iti) (Hnz _ Iti) Hr Hdi (Hno i ti Dn Eti) D0 Hc Es). specialize (Bd _ Iti). lra. }
    subst i. split; [congruence|]. rewrite Eti in Et0. injection Et0 as ->. rewrite Es0 in Es. injection Es as <- <- _. rewrite Et, Er', Ec, Er. now split. }
  assert (Pre : forall j, (j <= length rx)%nat -> firstn j ms = firstn j modes).
  { induction j as [|j IH]; intros Hj; [reflexivity|]. destruct (Step j ltac:(lia) (IH ltac:(lia))) as [S _].
    destruct (nth_error_lt_Some modes j ltac:(lia)) as [i0 Ei0]. rewrite Ei0 in S.
    rewrite (firstn_S_nth ms j i0 S), (firstn_S_nth modes j i0 Ei0). now rewrite IH by lia. }
  f_equal. f_equal; apply nth_error_ext_lt; try lia; intros j Hj; apply (Step j ltac:(lia) (Pre j ltac:(lia))).
Qed.
Lemma evm_row_bound delta r c : r <> [] -> 0 <= delta -> Forall2 (fun x s => Cabs (x - s)%C <= delta) r c -> exists v, evm_row c r = Ok (Some v) /\ 0 <= v <= delta.
Proof.
  intros Hr D0 H. pose proof (F2_len _ _ _ H) as L. unfold evm_row. rewrite L, Nat.eqb_refl. cbn [negb]. destruct c as [|c0 c]; [destruct r; [contradiction|discriminate]|].
  eexists. split; [reflexivity|]. split; [apply sqrt_pos|]. set (l := map _ _). assert (Bl : forall x, In x l -> 0 <= x <= delta * delta).
  { intros x Hx. unfold l in Hx. apply in_map_iff in Hx as [[s y] [<- Hi]]. cbn [fst snd]. split; [apply Cnorm2_nonneg|]. apply In_nth_error in Hi as [k Ek].
    assert (A : Cabs (y - s)%C <= delta).
    { clear - H Ek. revert k Ek. generalize dependent (c0 :: c). intros c' H. induction H as [|a b r1 c1 E H IH]; intros [|k] Ek; cbn in Ek; try discriminate; [injection Ek as <- <-; exact E|eapply IH; exact Ek]. }
    replace (Cnorm2 (s - y)%C) with (Cnorm2 (y - s)%C) by (unfold Cnorm2; cbn; ring). rewrite <- (sqrt_sqrt (Cnorm2 (y - s)%C)) by apply Cnorm2_nonneg. fold (Cabs (y - s)%C).
    pose proof (Cabs_nonneg (y - s)%C). nra. }
  assert (Ll : (0 < length l)%nat) by (unfold l; rewrite map_length, combine_length; cbn [length] in *; lia).
  apply Rle_trans with (sqrt (delta * delta)); [|rewrite sqrt_square by exact D0; lra]. apply sqrt_le_1_alt. unfold Rmean.
  assert (Hs : Rsum l <= INR (length l) * (delta * delta)).
  { clear - Bl. induction l as [|a l IH]; [cbn; lra|]. rewrite Rsum_cons. cbn [length]. rewrite S_INR. specialize (IH (fun x Hx => Bl x (or_intror Hx))). pose proof (Bl a (or_introl eq_refl)). lra. }
  assert (0 < INR (length l)) by (apply lt_0_INR; exact Ll). apply Rmult_le_reg_r with (INR (length l)); [assumption|]. unfold Rdiv. rewrite Rmult_assoc, Rinv_l by lra. lra.
Qed.
Lemma noisy_no_errors k mp tx rx clean modes n N e B rho delta d : (k <= 16)%nat ->
  (qam_mapping k = Ok mp /\ (Nat.even k = true /\ (2 <= k)%nat \/ Nat.odd k = true /\ (5 <= k)%nat)) \/ (psk_mapping k = Ok mp /\ (2 <= k)%nat) ->
  (0 < n)%nat -> rect tx n -> (0 < N)%nat -> rect rx N -> over (coded_symbols mp) tx -> Forall all_nonzero tx -> Forall (fun t => seq_energy t = e /\ abs_sum t <= B) tx ->
  0 <= rho -> 0 <= delta -> rho + 2 * (delta * B) < e -> minimum_distance (coded_symbols mp) d -> delta < d / 2 ->
  NoDup modes -> Forall2 (fun i c => exists p q, arrives_apart tx i p q rho c) modes clean -> close delta rx clean ->
  cal_ser mp tx rx false = Ok (repeat (Some 0) (length rx)) /\ cal_ber mp tx rx false = Ok (repeat (Some 0) (length rx)) /\
  exists evm, cal_evm mp tx rx false false = Ok (map Some evm) /\ length evm = length rx /\ Forall (fun v => 0 <= v <= delta) evm.
Proof.
  intros H16 Hk Hn Ht HN Hr Ho Hnz He R0 D0 Hm Hd Hdel Hnd Hl Hcl.
  pose proof (noisy_link tx rx clean modes n e B rho delta Hn Ht Hnz He R0 D0 Hm Hnd Hl Hcl) as Hs. pose proof (F2_len _ _ _ Hcl) as Lc.
  assert (H1 : (1 <= k)%nat) by (destruct Hk as [[_ [[_ H]|[_ H]]]|[_ H]]; lia).
  assert (Hlib : lib_mapping k mp) by (destruct Hk as [[H _]|[H _]]; [now left|now right]).
  assert (Hrc : rect clean N).
  { clear - Hcl Hr. unfold close, rect in *. induction Hcl as [|r c rx clean E H IH]; constructor; inversion Hr; subst; [symmetry; eapply F2_len; exact E|now apply IH]. }
  assert (Hoc : over (coded_symbols mp) clean).
  { unfold over in *. rewrite Forall_forall in Ho. clear - Hl Ho Hk. induction Hl as [|i c modes clean (p & q & Hq & (t & Et & _ & Hp & _) & _) Hl IH]; constructor; [|exact IH].
    apply nth_error_In in Et. specialize (Ho _ Et). rewrite Forall_forall in Ho |- *. intros s Is. destruct (In_nth_error _ _ Is) as [j Ej]. rewrite (Hp j (nth_error_Some_lt _ _ _ Ej)) in Ej.
    apply nth_error_In in Ej. unfold turned in Ej. apply in_map_iff in Ej as [s0 [<- H0]]. apply (alphabet_turn k mp Hk). now apply Ho. }
  destruct (c23 k mp (conj H1 H16) Hlib tx rx false clean rx N d Hs HN Hrc Hr (eq_sym Lc) Hoc Hd) as [E1 E2].
  { clear - Hcl Hdel. unfold close in Hcl. induction Hcl as [|r c rx clean E H IH]; constructor; [|exact IH]. clear - E Hdel. induction E; constructor; [lra|assumption]. }
  split; [exact E1|]. split; [exact E2|]. unfold cal_evm. rewrite Hs. cbn [bind fst snd]. unfold rowwise. rewrite <- Lc, Nat.eqb_refl. cbn [negb].
  clear - Hcl Hr HN D0. unfold close in Hcl. induction Hcl as [|r c rx clean E H IH]; [exists []; now repeat split|]. inversion Hr; subst. destruct (IH ltac:(assumption)) as (evm & F1 & F2 & F3).
  destruct (evm_row_bound delta r c ltac:(intros ->; cbn in HN; lia) D0 E) as (v & G1 & G2). exists (v :: evm). cbn [combine mapM fst snd]. rewrite G1. cbn [bind]. rewrite F1. cbn [bind map length].
  split; [reflexivity|]. split; [congruence|]. now constructor.
Qed.

(** ** concrete case *)
Ltac ext_at := repeat match goal with |- context [ext ?l ?z] => let n := eval vm_compute in z in
  match n with Z.neg _ => replace (ext l z) with C0 by reflexivity | _ => let m := eval vm_compute in (Z.to_nat n) in replace (ext l z) with (nth m l C0) by reflexivity end end.
Ltac at_most_two := unfold corr; cbn [length]; rewrite !csum_S, csum_0; ext_at; cbn [nth]; apply Cabs_le_sqr; [lra|]; unfold Cnorm2; cbn; lra.
Lemma noisy_ex : let t := [(1, 0); (1, 0); (0, 1)] in
  signal_sync_and_adjust [t] [[(1, 1 / 10); (1, 0); (0, 1); (9 / 10, 0); (1, 0); (0, 1)]] false =
  Ok ([t ++ t], [[(1, 1 / 10); (1, 0); (0, 1); (9 / 10, 0); (1, 0); (0, 1)]]).
Proof.
  cbv zeta. apply (noisy_link _ _ _ [0]%nat 3 3 3 2 (1 / 10)); [lia|repeat constructor| | |lra|lra|lra|repeat constructor; intros []| |].
  - constructor; [|constructor]. intros s H E; repeat (destruct H as [<-|H]; [apply (f_equal fst) in E as E1; apply (f_equal snd) in E; cbn in E, E1; lra|]); destruct H.
  - apply Forall_cons; [|apply Forall_nil]. unfold seq_energy, energy_at, abs_sum. cbn [length]. rewrite !rsum_S, !rsum_0. rewrite !Z.add_0_l, !ext_nth. cbn [nth]. unfold Cabs.
    assert (N1 : Cnorm2 (1, 0) = 1) by (unfold Cnorm2; cbn; ring). assert (N2 : Cnorm2 (0, 1) = 1) by (unfold Cnorm2; cbn; ring). rewrite N1, N2, sqrt_1. lra.
  - apply Forall2_cons; [|apply Forall2_nil]. exists 0%Z, 0%nat. split; [lia|]. split.
    + eexists. split; [reflexivity|]. split; [cbn; lia|]. split.
      * intros j Hj. cbn [length app] in Hj. do 6 (destruct j as [|j]; [match goal with |- context [Z.to_nat ?x] => let v := eval vm_compute in (Z.to_nat x) in change (Z.to_nat x) with v end; cbn; f_equal; apply C_eq; cbn; lra|]). lia.
      * intros d Hd. cbn [app] in *. destruct (Z_lt_le_dec d (-2)) as [H1|H1]; [rewrite corr_out by (unfold lag; cbn [length]; lia); rewrite Cabs_zero; lra|].
        destruct (Z_lt_le_dec 5 d) as [H2|H2]; [rewrite corr_out by (unfold lag; cbn [length]; lia); rewrite Cabs_zero; lra|].
        assert (D : (d = -2 \/ d = -1 \/ d = 0 \/ d = 1 \/ d = 2 \/ d = 3 \/ d = 4 \/ d = 5)%Z) by lia.
        assert (Oc : (d = 0 \/ d = 3)%Z -> False).
        { intros Dz. apply Hd. split; [cbn [length]; lia|]. intros k Hk. cbn [length] in Hk. destruct Dz as [->| ->]; do 3 (destruct k as [|k]; [ext_at; cbn [nth quarter]; apply C_eq; cbn; ring|]); lia. }
        destruct D as [->|[->|[->|[->|[->|[->|[->| ->]]]]]]]; try (exfalso; apply Oc; lia); at_most_two.
    + intros i' t' Hi Et. destruct i' as [|i']; [lia|destruct i'; discriminate].
  - assert (Z0 : forall z : C, Cabs (z - z)%C <= 1 / 10) by (intros z; replace (z - z)%C with C0 by cring; rewrite Cabs_zero; lra).
    cbn [app]. apply Forall2_cons; [|apply Forall2_nil]. repeat apply Forall2_cons; try apply Z0; try apply Forall2_nil; apply Cabs_le_sqr; try lra; unfold Cnorm2; cbn; lra.
Qed.
