From Coq Require Import List ZArith NArith Bool Lia Reals Lra Psatz Arith ZifyBool ZifyNat ZifyN.
From Verif Require Import Common.Py Common.ListX Common.Cplx Common.SumX Model.Gray Model.Constellation Model.Decision Model.Sync Model.Quality
  Spec.Bits Spec.Geometry Spec.Seq Spec.Metrics Proofs.GrayP Proofs.DecisionP Proofs.MapP Proofs.QamP Proofs.PskP Proofs.C01P Proofs.C02P Proofs.PilotP Proofs.QualityP.
Import ListNotations.
Local Open Scope R_scope.

(** ** C21 *)
Lemma Cabs_pow2 z : Cabs z ^ 2 = Cnorm2 z.
Proof. rewrite <- Cabs_sqr. ring. Qed.

Lemma det_loop x l : forall s d0, (exists t, In t l /\ Cnorm2 (x - t)%C < d0) ->
  exists i t, nth_error l i = Some t /\ det_symbol_loop x l s d0 = (t, Cabs (x - t)%C ^ 2) /\ Cnorm2 (x - t)%C < d0 /\
    (forall j u, nth_error l j = Some u -> Cnorm2 (x - t)%C <= Cnorm2 (x - u)%C) /\
    (forall j u, (j < i)%nat -> nth_error l j = Some u -> Cnorm2 (x - t)%C < Cnorm2 (x - u)%C).
Proof.
  induction l as [|a l IH]; intros s d0 (t & Hin & Ht); [destruct Hin|]. cbn [det_symbol_loop]. rewrite Cabs_pow2.
  destruct (Rlt_dec (Cnorm2 (x - a)%C) d0) as [H|H].
  - destruct (Exists_dec (fun u => Cnorm2 (x - u)%C < Cnorm2 (x - a)%C) l) as [E|E]; [intros u; apply Rlt_dec| |].
    + apply Exists_exists in E. destruct (IH a (Cnorm2 (x - a)%C) E) as (i & u & H1 & H2 & H3 & H4 & H5).
      exists (S i), u. split; [exact H1|]. split; [exact H2|]. split; [lra|]. split.
      * intros [|j] w Hw; [injection Hw as <-; lra|]. eapply H4; eassumption.
      * intros [|j] w Hj Hw; [injection Hw as <-; lra|]. apply H5 with j; [lia|assumption].
    + exists 0%nat, a. split; [reflexivity|]. split.
      { clear IH Hin Ht H. assert (Hall : forall u, In u l -> ~ Cnorm2 (x - u)%C < Cnorm2 (x - a)%C).
        { intros u Hu Hc. apply E. apply Exists_exists. eauto. }
        clear E. rewrite <- Cabs_pow2 in *. revert Hall. generalize (Cabs (x - a)%C ^ 2). intros d Hall.
        induction l as [|b l IH]; [reflexivity|]. cbn [det_symbol_loop]. rewrite Cabs_pow2. destruct (Rlt_dec _ _) as [Hc|Hc].
        - exfalso. apply (Hall b); [now left|assumption].
        - apply IH. intros u Hu. apply Hall. now right. }
      split; [assumption|]. split.
      * intros [|j] w Hw; [injection Hw as <-; lra|]. apply Rnot_lt_le. intros Hc. apply E. apply Exists_exists. exists w. split; [eapply nth_error_In; eassumption|assumption].
      * intros j w Hj. lia.
  - destruct (IH s d0) as (i & u & H1 & H2 & H3 & H4 & H5).
    { destruct Hin as [->|Hin]; [lra|eauto]. }
    exists (S i), u. split; [exact H1|]. split; [exact H2|]. split; [assumption|]. split.
    * intros [|j] w Hw; [injection Hw as <-; lra|]. eapply H4; eassumption.
    * intros [|j] w Hj Hw; [injection Hw as <-; lra|]. apply H5 with j; [lia|assumption].
Qed.
Lemma dsp_det_loop x l : forall s d0, let (s', d') := det_symbol_loop x l s d0 in
  (exists t, In t l /\ Cnorm2 (x - t)%C < d0) -> forall o, dsp_det_symbol_loop x l o d0 = (Some s', d').
Proof.
  induction l as [|a l IH]; intros s d0; cbn [det_symbol_loop dsp_det_symbol_loop].
  - intros (t & Ht & _). destruct Ht.
  - rewrite Cabs_pow2. destruct (Rlt_dec (Cnorm2 (x - a)%C) d0) as [H|H].
    + specialize (IH a (Cnorm2 (x - a)%C)). destruct (det_symbol_loop x l a (Cnorm2 (x - a)%C)) as [s' d'] eqn:E. intros _ o.
      destruct (Exists_dec (fun u => Cnorm2 (x - u)%C < Cnorm2 (x - a)%C) l) as [Ex|Ex]; [intros u; apply Rlt_dec| |].
      * apply IH. now apply Exists_exists in Ex.
      * assert (Hall : forall u, In u l -> ~ Cnorm2 (x - u)%C < Cnorm2 (x - a)%C).
        { intros u Hu Hc. apply Ex. apply Exists_exists. eauto. }
        clear IH Ex H. revert E Hall. generalize (Cnorm2 (x - a)%C). intros d E Hall. revert E. induction l as [|b l IHl]; cbn [det_symbol_loop dsp_det_symbol_loop].
        { intros E. congruence. }
        rewrite Cabs_pow2. destruct (Rlt_dec _ _) as [Hc|Hc]; [exfalso; apply (Hall b); [now left|assumption]|]. apply IHl. intros u Hu. apply Hall. now right.
    + specialize (IH s d0). destruct (det_symbol_loop x l s d0) as [s' d']. intros (t & [->|Ht] & Hd); [lra|]. apply IH. eauto.
Qed.
Lemma c21 x symbs : (exists t, In t symbs /\ Cabs (x - t)%C ^ 2 < 1000) ->
  exists i s, nearest_first symbs x i s /\ det_symbol x symbs = (s, Cabs (x - s)%C ^ 2) /\
    dsp_det_symbol x symbs = (Some s, Cabs (x - s)%C ^ 2) /\ det_symbol_argmin x symbs = Ok (s, Cabs (x - s)%C, i).
Proof.
  intros (t & Hin & Ht). rewrite Cabs_pow2 in Ht. assert (Hex : exists t, In t symbs /\ Cnorm2 (x - t)%C < 1000) by eauto.
  destruct (det_loop x symbs C1 1000 Hex) as (i & s & H1 & H2 & _ & H4 & H5).
  assert (Hn : nearest_first symbs x i s).
  { split; [assumption|]. split; [intros j u Hu; apply Cabs_le; eauto|intros j u Hj Hu; apply Cabs_lt; eauto]. }
  exists i, s. split; [assumption|]. split; [assumption|]. split.
  - unfold dsp_det_symbol. pose proof (dsp_det_loop x symbs C1 1000) as H. rewrite H2 in H. now apply H.
  - assert (Hne : symbs <> []) by (intros ->; destruct Hin). destruct (dec1_ok symbs x Hne) as (E & (N1 & N2 & N3) & D). rewrite E.
    unfold dix, dsym in *. destruct (dec1 symbs x) as [[s' d'] i'] eqn:Ed. cbn [fst snd] in *.
    assert (i' = i).
    { destruct (Nat.lt_trichotomy i' i) as [L|[L|L]]; [|assumption|]; exfalso.
      - specialize (H5 _ _ L N1). specialize (N2 _ _ H1). apply Cabs_le in N2. lra.
      - specialize (N3 _ _ L H1). specialize (H4 _ _ N1). apply Cabs_lt in N3. lra. }
    subst i'. assert (s' = s) by congruence. subst. reflexivity.
Qed.
Lemma c21_far : ~ In C1 [C0] /\ det_symbol (100, 0) [C0] = (C1, 1000) /\ fst (dsp_det_symbol (100, 0) [C0]) = None.
Proof.
  split; [|split].
  - intros [H|[]]. unfold C0, C1 in H. injection H as H. lra.
  - unfold det_symbol. cbn [det_symbol_loop]. rewrite Cabs_pow2. destruct (Rlt_dec _ _) as [H|H]; [|reflexivity]. unfold Cnorm2, Csub, C0 in H. cbn in H. lra.
  - unfold dsp_det_symbol. cbn [dsp_det_symbol_loop]. destruct (Rlt_dec _ _) as [H|H]; [|reflexivity]. unfold Cnorm2, Csub, C0 in H. cbn in H. lra.
Qed.

(** ** C24 *)
Lemma Rsum_zero_iff {A} (f : A -> R) l : (forall x, In x l -> 0 <= f x) -> (Rsum (map f l) = 0 <-> forall x, In x l -> f x = 0).
Proof.
  intros H. split.
  - intros E x Hx. apply (Rsum_zero_nonneg (map f l)); [|assumption|now apply in_map]. intros y Hy. apply in_map_iff in Hy as (z & <- & Hz). auto.
  - intros E. rewrite (map_ext_in _ (fun _ => 0)) by auto. rewrite Rsum_map_const. ring.
Qed.
Lemma combine_eq_iff {A} (a b : list A) : length a = length b -> ((forall p, In p (combine a b) -> fst p = snd p) <-> a = b).
Proof.
  revert b. induction a as [|x a IH]; intros [|y b] H; try discriminate; [split; [reflexivity|intros _ p []]|].
  cbn [combine]. split.
  - intros Hp. f_equal; [apply (Hp (x, y)); now left|]. apply IH; [cbn in H; congruence|]. intros p Hin. apply Hp. now right.
  - intros E p Hin. injection E as -> ->. destruct Hin as [<-|Hin]; [reflexivity|]. apply (proj2 (IH b eq_refl)); auto.
Qed.
Lemma distance2_nonneg a b : 0 <= distance2 a b.
Proof.
  unfold distance2, Rmean. destruct (combine a b) as [|p l] eqn:E; [cbn; unfold Rdiv; rewrite Rmult_0_l; lra|].
  apply Rmult_le_pos; [|left; apply Rinv_0_lt_compat, lt_0_INR; cbn; lia].
  apply Rsum_nonneg. intros x Hx. apply in_map_iff in Hx as (q & <- & _). apply Cnorm2_nonneg.
Qed.
Lemma distance2_0 a b : length a = length b -> (distance2 a b = 0 <-> a = b).
Proof.
  intros Hl. rewrite <- combine_eq_iff by assumption. unfold distance2, Rmean.
  destruct (combine a b) as [|p l] eqn:E; [cbn; split; [intros _ p []|intros _; unfold Rdiv; ring]|]. rewrite <- E.
  set (n := INR (length (map (fun p0 : C * C => Cnorm2 (fst p0 - snd p0)%C) (combine a b)))).
  assert (Hn : 0 < n) by (apply lt_0_INR; rewrite map_length, E; cbn; lia).
  transitivity (Rsum (map (fun p0 : C * C => Cnorm2 (fst p0 - snd p0)%C) (combine a b)) = 0).
  - split; intros H; [|rewrite H; unfold Rdiv; ring]. apply Rmult_eq_reg_r with (/ n); [|apply Rinv_neq_0_compat; lra]. rewrite Rmult_0_l. exact H.
  - rewrite Rsum_zero_iff by (intros; apply Cnorm2_nonneg). split; intros H q Hq; specialize (H q Hq).
    + now apply Cnorm2_zero, Csub_eq0 in H.
    + rewrite H, Csub_diag. apply Cnorm2_0.
Qed.
Lemma evm_row_ok a b : (0 < length a)%nat -> length a = length b -> evm_row a b = Ok (Some (sqrt (distance2 a b))).
Proof. intros H0 Hl. unfold evm_row. rewrite Hl, Nat.eqb_refl. cbn [negb]. destruct a; [cbn in H0; lia|reflexivity]. Qed.
Lemma nth_error_combine {A B} (a : list A) (b : list B) m t r : nth_error a m = Some t -> nth_error b m = Some r -> nth_error (combine a b) m = Some (t, r).
Proof. revert b m. induction a as [|u a IH]; intros [|w b] [|m] Et Er; cbn in *; try discriminate; [congruence|now apply IH]. Qed.

Lemma c24_aided mp symbols sig synced tx rx N : signal_sync_and_adjust symbols sig synced = Ok (tx, rx) ->
  (0 < N)%nat -> rect tx N -> rect rx N -> length tx = length rx ->
  exists evm, cal_evm mp symbols sig synced false = Ok (map Some evm) /\ length evm = length rx /\
    forall m t r, nth_error tx m = Some t -> nth_error rx m = Some r ->
      exists e, nth_error evm m = Some e /\ 0 <= e /\ e ^ 2 = distance2 t r /\ (e = 0 <-> r = t).
Proof.
  intros Hs HN Ht Hr Hl. exists (map (fun p => sqrt (distance2 (fst p) (snd p))) (combine tx rx)). split.
  { unfold cal_evm. rewrite Hs. cbn [bind fst snd]. rewrite (rowwise_ok evm_row (fun a b => Some (sqrt (distance2 a b)))); [now rewrite map_map|assumption|].
    intros i x y Hx Hy. apply (rect_nth _ _ _ _ Ht) in Hx. apply (rect_nth _ _ _ _ Hr) in Hy. apply evm_row_ok; lia. }
  split; [rewrite map_length, combine_length; lia|]. intros m t r Et Er. exists (sqrt (distance2 t r)).
  split; [rewrite nth_error_map, (nth_error_combine _ _ _ _ _ Et Er); reflexivity|]. split; [apply sqrt_pos|]. split.
  - rewrite <- Rsqr_pow2. apply Rsqr_sqrt, distance2_nonneg.
  - assert (length t = length r) by (now rewrite (rect_nth _ _ _ _ Hr Er), (rect_nth _ _ _ _ Ht Et)).
    transitivity (t = r); [|split; congruence]. rewrite <- distance2_0 by assumption. split; [intros H0; apply sqrt_eq_0 in H0; [assumption|apply distance2_nonneg]|intros ->; apply sqrt_0].
Qed.

Lemma c24_blind k mp symbols sig synced tx rx N : (1 <= k)%nat -> lib_mapping k mp -> signal_sync_and_adjust symbols sig synced = Ok (tx, rx) ->
  (0 < N)%nat -> rect tx N -> rect rx N -> length tx = length rx -> over (coded_symbols mp) tx ->
  exists blind, cal_evm mp symbols rx synced true = Ok (map Some blind) /\ length blind = length rx /\
    forall aided, cal_evm mp symbols sig synced false = Ok (map Some aided) ->
    forall m b e, nth_error blind m = Some b -> nth_error aided m = Some e -> b <= e.
Proof.
  intros Hk Hm Hs HN Ht Hr Hl Hov. destruct (lib_facts k mp Hk Hm) as (_ & _ & _ & Hne). set (cs := coded_symbols mp) in *.
  exists (map (fun r => sqrt (distance2 (map (dsym cs) r) r)) rx). split.
  { unfold cal_evm. rewrite signal_decide_ok by assumption. cbn [bind]. fold cs. rewrite (rowwise_ok evm_row (fun a b => Some (sqrt (distance2 a b)))).
    - f_equal. rewrite map_map. clear. induction rx as [|r rx IH]; [reflexivity|]. cbn [map combine fst snd]. now rewrite IH.
    - now rewrite map_length.
    - intros i x y Hx Hy. rewrite nth_error_map, Hy in Hx. cbn in Hx. injection Hx as <-. apply (rect_nth _ _ _ _ Hr) in Hy. apply evm_row_ok; rewrite map_length; lia. }
  split; [apply map_length|]. intros aided Ha m b e Hb He.
  destruct (c24_aided mp symbols sig synced tx rx N Hs HN Ht Hr Hl) as (ev & E & Hlev & Hev).
  assert (Eq : ev = aided). { rewrite E in Ha. injection Ha as Ha. clear - Ha. revert aided Ha. induction ev as [|x ev IH]; intros [|y a] Ha; try discriminate; [reflexivity|]. injection Ha as -> Ha. f_equal. auto. }
  subst aided. rewrite nth_error_map in Hb. destruct (nth_error rx m) as [r|] eqn:Er; [|discriminate]. cbn in Hb. injection Hb as <-.
  destruct (nth_error tx m) as [t|] eqn:Et; [|apply nth_error_None in Et; apply nth_error_Some_lt in Er; lia].
  destruct (Hev m t r Et Er) as (e' & He' & He0 & Hd & _). assert (e' = e) by congruence. subst e'.
  rewrite <- (sqrt_pow2 e) by assumption. apply sqrt_le_1_alt. rewrite Hd.
  assert (Hlt : length t = length r) by (now rewrite (rect_nth _ _ _ _ Hr Er), (rect_nth _ _ _ _ Ht Et)).
  assert (HtN : length t = N) by exact (rect_nth _ _ _ _ Ht Et).
  assert (Hot : Forall (fun s => In s cs) t) by (unfold over in Hov; rewrite Forall_forall in Hov; apply Hov; eapply nth_error_In; eassumption).
  assert (Hsum : Rsum (map (fun p => Cnorm2 (fst p - snd p)%C) (combine (map (dsym cs) r) r)) <= Rsum (map (fun p => Cnorm2 (fst p - snd p)%C) (combine t r))).
  { clear - Hlt Hot Hne. revert r Hlt. induction Hot as [|s t Hs Ht IH]; intros [|x r] Hlt; try discriminate; [cbn; lra|]. cbn [map combine]. rewrite !Rsum_cons. cbn [fst snd].
    apply Rplus_le_compat; [|apply IH; cbn in Hlt; congruence]. rewrite (Cnorm2_sub_sym _ x), (Cnorm2_sub_sym s x). apply Cabs_le.
    destruct (dec1_ok cs x Hne) as (_ & (H1 & H2 & _) & _). apply In_nth_error in Hs as (j & Hj). eauto. }
  unfold distance2, Rmean. rewrite !map_length, !combine_length, map_length, Hlt, Nat.min_id.
  apply Rmult_le_compat_r; [|assumption]. left. apply Rinv_0_lt_compat, lt_0_INR. lia.
Qed.
