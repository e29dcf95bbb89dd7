From Coq Require Import List ZArith NArith Bool Lia Reals Lra Psatz Arith ZifyBool ZifyNat ZifyN.
From Verif Require Import Common.Py Common.ListX Common.Cplx Common.SumX Model.Gray Model.Constellation Model.Decision Model.Sync Model.Quality
  Spec.Bits Spec.Geometry Spec.Seq Spec.Metrics Proofs.GrayP Proofs.DecisionP Proofs.MapP Proofs.QamP Proofs.PskP Proofs.C01P Proofs.C02P Proofs.PilotP Proofs.QualityP Proofs.QualityQ.
Import ListNotations.
Local Open Scope R_scope.

(** ** C25 *)
Lemma Csel_cons r rx t tx a : Csel (r :: rx) (t :: tx) a = if Ceq_dec t a then r :: Csel rx tx a else Csel rx tx a.
Proof. unfold Csel. cbn [combine filter snd]. destruct (Ceq_dec t a); reflexivity. Qed.
Lemma Rsum_single {A} (dec : forall a b : A, {a = b} + {a <> b}) (v : R) t (l : list A) : NoDup l -> In t l -> Rsum (map (fun a => if dec t a then v else 0) l) = v.
Proof.
  induction 1 as [|x l Hx Hnd IH]; intros Hin; [destruct Hin|]. cbn [map]. rewrite Rsum_cons. destruct (dec t x) as [->|E].
  - rewrite (map_ext_in _ (fun _ => 0)). { rewrite Rsum_map_const. ring. } intros a Ha. destruct (dec x a); [subst; contradiction|reflexivity].
  - destruct Hin as [->|Hin]; [congruence|]. rewrite IH by assumption. ring.
Qed.
Lemma partition_sum (f : C -> R) alphabet : NoDup alphabet -> forall rx tx, length rx = length tx -> (forall t, In t tx -> In t alphabet) ->
  Rsum (map (fun a => Rsum (map f (Csel rx tx a))) alphabet) = Rsum (map f rx).
Proof.
  intros Hnd. induction rx as [|r rx IH]; intros [|t tx] Hl Hin; try discriminate.
  - rewrite (map_ext _ (fun _ => 0)) by reflexivity. rewrite Rsum_map_const. cbn. ring.
  - rewrite (map_ext _ (fun a => (if Ceq_dec t a then f r else 0) + Rsum (map f (Csel rx tx a)))).
    + rewrite Rsum_map_add, IH; [|cbn in Hl; congruence|intros u Hu; apply Hin; now right]. rewrite Rsum_single; [|assumption|apply Hin; now left].
      cbn [map]. now rewrite Rsum_cons.
    + intros a. rewrite Csel_cons. destruct (Ceq_dec t a); cbn [map]; rewrite ?Rsum_cons; ring.
Qed.
Lemma variance_split l : l <> [] ->
  INR (length l) * Cnorm2 (Cmean l) + Rsum (map (fun z => Cnorm2 (z - Cmean l)%C) l) = Rsum (map Cnorm2 l).
Proof.
  intros Hne. set (mu := Cmean l). set (n := INR (length l)). assert (Hn : 0 < n) by (apply lt_0_INR; destruct l; [congruence|cbn; lia]).
  rewrite (map_ext _ (fun z => Cnorm2 z + (Cnorm2 mu + (-2 * fst mu * fst z + -2 * snd mu * snd z)))).
  2:{ intros z. unfold Cnorm2, Csub. cbn [fst snd]. ring. }
  rewrite !Rsum_map_add, Rsum_map_const, !Rsum_map_scal, <- Re_Csum, <- Im_Csum.
  assert (H1 : fst (Csum l) = n * fst mu) by (unfold mu, Cmean, Cscal; cbn [fst]; fold n; field; lra).
  assert (H2 : snd (Csum l) = n * snd mu) by (unfold mu, Cmean, Cscal; cbn [snd]; fold n; field; lra).
  rewrite H1, H2. fold n. unfold Cnorm2. ring.
Qed.
Definition noise_of rx tx a := Rsum (map (fun z => Cnorm2 (z - Cmean (Csel rx tx a))%C) (Csel rx tx a)).
Lemma noise_of_nonneg rx tx a : 0 <= noise_of rx tx a.
Proof. apply Rsum_nonneg. intros x Hx. apply in_map_iff in Hx as (z & <- & _). apply Cnorm2_nonneg. Qed.
Lemma snr_loop_ok rx tx : (0 < length rx)%nat -> forall alphabet ps pn, (forall a, In a alphabet -> Csel rx tx a <> []) ->
  snr_loop rx tx alphabet ps pn = Some (ps + Rsum (map (fun a => INR (length (Csel rx tx a)) * Cnorm2 (Cmean (Csel rx tx a))) alphabet) / INR (length rx),
                                        pn + Rsum (map (noise_of rx tx) alphabet) / INR (length rx)).
Proof.
  intros HL. assert (HLR : 0 < INR (length rx)) by now apply lt_0_INR.
  induction alphabet as [|a al IH]; intros ps pn H; cbn [snr_loop map].
  - f_equal. f_equal; cbn; field; lra.
  - destruct (Csel rx tx a) as [|z sel] eqn:E; [exfalso; apply (H a); [now left|assumption]|]. rewrite <- E in *.
    rewrite IH by (intros b Hb; apply H; now right). rewrite !Rsum_cons.
    assert (HK : 0 < INR (length (Csel rx tx a))) by (apply lt_0_INR; rewrite E; cbn; lia).
    f_equal. f_equal; [field; lra|]. rewrite <- (Rsqr_pow2 (sqrt _)), Rsqr_sqrt.
    + unfold noise_of at 2. field. lra.
    + apply Rmult_le_pos; [apply noise_of_nonneg|left; now apply Rinv_0_lt_compat].
Qed.
Lemma Csel_in rx tx a z : In z (Csel rx tx a) <-> exists i, nth_error rx i = Some z /\ nth_error tx i = Some a.
Proof.
  revert tx. induction rx as [|r rx IH]; intros [|t tx]; try (split; [intros []|intros ([|i] & H1 & H2); discriminate]).
  rewrite Csel_cons. destruct (Ceq_dec t a) as [->|E].
  - cbn [In]. rewrite IH. split.
    + intros [->|(i & H)]; [exists 0%nat; split; reflexivity|exists (S i); exact H].
    + intros ([|i] & H1 & H2); [left; cbn in H1; congruence|right; exists i; split; assumption].
  - rewrite IH. split.
    + intros (i & H). exists (S i). exact H.
    + intros ([|i] & H1 & H2); [cbn in H2; congruence|exists i; split; assumption].
Qed.
Lemma Cmean_const l z : l <> [] -> (forall w, In w l -> w = z) -> Cmean l = z.
Proof.
  intros Hne H. assert (Hn : 0 < INR (length l)) by (apply lt_0_INR; destruct l; [congruence|cbn; lia]).
  assert (E : Csum l = Cscal (INR (length l)) z).
  { clear Hne Hn. induction l as [|w l IH]; [apply C_eq; cbn; ring|]. rewrite Csum_cons, IH by (intros; apply H; now right). rewrite (H w) by now left.
    cbn [length]. rewrite S_INR. apply C_eq; cbn; ring. }
  unfold Cmean. rewrite E. apply C_eq; cbn; field; lra.
Qed.

Lemma c25 rx tx alphabet : (0 < length rx)%nat -> length rx = length tx -> NoDup alphabet -> (forall t, In t tx <-> In t alphabet) ->
  exists ps pn, estimate_snr rx tx alphabet = Some (ps, pn) /\ 0 <= ps /\ 0 <= pn /\ ps + pn = power rx /\
    (pn = 0 <-> forall i j t ri rj, nth_error tx i = Some t -> nth_error tx j = Some t -> nth_error rx i = Some ri -> nth_error rx j = Some rj -> ri = rj).
Proof.
  intros HL Hlen Hnd Hal. assert (HLR : 0 < INR (length rx)) by now apply lt_0_INR.
  assert (Hsel : forall a, In a alphabet -> Csel rx tx a <> []).
  { intros a Ha E. apply Hal in Ha. apply In_nth_error in Ha as (i & Hi).
    destruct (nth_error rx i) as [z|] eqn:Ez; [|apply nth_error_None in Ez; apply nth_error_Some_lt in Hi; lia].
    assert (Hin : In z (Csel rx tx a)) by (apply Csel_in; eauto). rewrite E in Hin. destruct Hin. }
  eexists _, _. split; [unfold estimate_snr; apply snr_loop_ok; assumption|]. rewrite !Rplus_0_l.
  assert (Hnn : 0 <= Rsum (map (noise_of rx tx) alphabet)).
  { apply Rsum_nonneg. intros x Hx. apply in_map_iff in Hx as (a & <- & _). apply noise_of_nonneg. }
  assert (Hinv : 0 < / INR (length rx)) by now apply Rinv_0_lt_compat.
  split. { apply Rmult_le_pos; [|lra]. apply Rsum_nonneg. intros x Hx. apply in_map_iff in Hx as (a & <- & _). apply Rmult_le_pos; [apply pos_INR|apply Cnorm2_nonneg]. }
  split. { apply Rmult_le_pos; lra. }
  split.
  - unfold power, Rmean. rewrite map_length. rewrite <- (partition_sum Cnorm2 alphabet Hnd rx tx Hlen) by (intros t Ht; now apply Hal).
    unfold Rdiv. rewrite <- Rmult_plus_distr_r, <- Rsum_map_add. f_equal. f_equal. apply map_ext_in. intros a Ha. unfold noise_of. apply variance_split. now apply Hsel.
  - transitivity (Rsum (map (noise_of rx tx) alphabet) = 0).
    { split; intros H; [|rewrite H; unfold Rdiv; ring]. apply Rmult_eq_reg_r with (/ INR (length rx)); [|lra]. rewrite Rmult_0_l. exact H. }
    rewrite Rsum_zero_iff by (intros; apply noise_of_nonneg). split.
    + intros H i j t ri rj Hi Hj Hri Hrj. assert (Ht : In t alphabet) by (apply Hal; eapply nth_error_In; eassumption).
      specialize (H t Ht). unfold noise_of in H. rewrite Rsum_zero_iff in H by (intros; apply Cnorm2_nonneg).
      assert (E : forall z, In z (Csel rx tx t) -> z = Cmean (Csel rx tx t)) by (intros z Hz; apply Csub_eq0, Cnorm2_zero, H; assumption).
      rewrite (E ri), (E rj); [reflexivity| |]; apply Csel_in; eauto.
    + intros H a Ha. unfold noise_of. apply Rsum_zero_iff; [intros; apply Cnorm2_nonneg|]. intros z Hz.
      rewrite (Cmean_const (Csel rx tx a) z); [rewrite Csub_diag; apply Cnorm2_0|now apply Hsel|]. intros w Hw.
      apply Csel_in in Hz as (i & Hi1 & Hi2). apply Csel_in in Hw as (j & Hj1 & Hj2). eapply H with (i := j) (j := i); eassumption.
Qed.
Lemma c25_unused rx tx alphabet a : length rx = length tx -> In a alphabet -> ~ In a tx -> estimate_snr rx tx alphabet = None.
Proof.
  intros Hl Ha Hn. assert (E : Csel rx tx a = []).
  { destruct (Csel rx tx a) as [|z l] eqn:E; [reflexivity|]. exfalso. assert (In z (Csel rx tx a)) by (rewrite E; now left).
    apply Csel_in in H as (i & _ & Hi). apply Hn. eapply nth_error_In; eassumption. }
  unfold estimate_snr. generalize 0 at 1. generalize 0. revert Ha. induction alphabet as [|b al IH]; intros Ha p q; [destruct Ha|]. cbn [snr_loop].
  destruct Ha as [->|Ha]; [now rewrite E|]. destruct (Csel rx tx b); [reflexivity|]. now apply IH.
Qed.

(** through est_snr *)
Lemma c25_signal k mp symbols sig synced tx rx N : (1 <= k)%nat -> lib_mapping k mp -> signal_sync_and_adjust symbols sig synced = Ok (tx, rx) ->
  (0 < N)%nat -> rect tx N -> rect rx N -> length tx = length sig -> length rx = length sig ->
  (forall m t, nth_error tx m = Some t -> forall s, In s t <-> In s (coded_symbols mp)) ->
  exists res, est_snr mp symbols sig synced = Ok (map Some res) /\ length res = length sig /\
    forall m t r, nth_error tx m = Some t -> nth_error rx m = Some r ->
      exists ps pn, nth_error res m = Some (ps, pn) /\ 0 <= ps /\ 0 <= pn /\ ps + pn = power r /\
      (pn = 0 <-> forall i j s ri rj, nth_error t i = Some s -> nth_error t j = Some s -> nth_error r i = Some ri -> nth_error r j = Some rj -> ri = rj).
Proof.
  intros Hk Hm Hs HN Ht Hr Hl Hl2 Hall. destruct (lib_facts k mp Hk Hm) as (Hnd & _ & _ & _). set (cs := coded_symbols mp) in *.
  assert (Hrow : forall m t r, nth_error tx m = Some t -> nth_error rx m = Some r -> (0 < length r)%nat /\ length r = length t /\ forall s, In s t <-> In s cs).
  { intros m t r Et Er. rewrite (rect_nth _ _ _ _ Hr Er), (rect_nth _ _ _ _ Ht Et). eauto. }
  assert (Hgen : forall n, (n <= length sig)%nat -> exists res, mapM (fun i => let! r := getn rx i in let! t := getn tx i in Ok (estimate_snr r t cs)) (seq 0 n) = Ok (map Some res) /\ length res = n /\
     forall m t r, (m < n)%nat -> nth_error tx m = Some t -> nth_error rx m = Some r -> exists p, nth_error res m = Some p /\ estimate_snr r t cs = Some p).
  { induction n as [|n IH]; intros Hn.
    - exists []. split; [reflexivity|]. split; [reflexivity|]. intros; lia.
    - destruct IH as (res & E & HL & H); [lia|].
      destruct (nth_error tx n) as [t|] eqn:Et; [|apply nth_error_None in Et; lia]. destruct (nth_error rx n) as [r|] eqn:Er; [|apply nth_error_None in Er; lia].
      destruct (Hrow n t r Et Er) as (A1 & A2 & A3). destruct (c25 r t cs A1 A2 Hnd A3) as (ps & pn & E1 & _).
      exists (res ++ [(ps, pn)]). split; [|split].
      + rewrite seq_S, map_app. apply mapM_app; [exact E|]. cbn [bind mapM Nat.add]. unfold getn. rewrite Er, Et. cbn [bind]. now rewrite E1.
      + rewrite app_length. cbn. lia.
      + intros m t' r' Hm' Et' Er'. destruct (Nat.eq_dec m n) as [->|].
        * assert (t' = t) by congruence. assert (r' = r) by congruence. subst t' r'. exists (ps, pn). split; [|assumption]. rewrite nth_error_app2 by lia. rewrite HL, Nat.sub_diag. reflexivity.
        * destruct (H m t' r') as (p & Hp & He); [lia|assumption|assumption|]. exists p. split; [|assumption]. rewrite nth_error_app1; [assumption|]. lia. }
  destruct (Hgen (length sig) (le_n _)) as (res & E & HL & H). exists res. split; [unfold est_snr; rewrite Hs; cbn [bind fst snd]; exact E|]. split; [assumption|].
  intros m t r Et Er. destruct (H m t r) as (p & Hp & He); [apply nth_error_Some_lt in Er; lia|assumption|assumption|].
  destruct (Hrow m t r Et Er) as (A1 & A2 & A3). destruct (c25 r t cs A1 A2 Hnd A3) as (ps & pn & E1 & Q). exists ps, pn. split; [congruence|exact Q].
Qed.
