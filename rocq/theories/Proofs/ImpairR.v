(** Proofs about helpers, quantisers, clipper, modulator and simulate_transmission. *)
From Coq Require Import List ZArith Arith Bool Reals Lra Lia.
From Coq Require Import ZifyBool ZifyNat ZifyN.
From Verif Require Import Common.Py Common.Cplx Common.SumX Common.Angle Common.ListX Common.Dft
  Model.Helpers Model.Phase Model.Impair Spec.Seq Spec.Equal Spec.ImpairSpec Spec.PhaseSpec Proofs.PhaseQ Proofs.ImpairP Proofs.ImpairQ.
Import ListNotations.
Local Open Scope R_scope.

(** ** dB *)
Lemma ln10_pos : 0 < ln 10.
Proof. rewrite <- ln_1. apply ln_increasing; lra. Qed.
Lemma dB_of_lin x : 0 < x -> exists y, lin2dB x = Some y /\ dB2lin y = x.
Proof.
  intros H. unfold lin2dB. destruct (Rlt_dec 0 x); [|contradiction]. eexists. split; [reflexivity|].
  unfold dB2lin, Rpower. pose proof ln10_pos.
  replace (10 * (ln x / ln 10) / 10 * ln 10) with (ln x) by (field; lra). apply exp_ln. exact H.
Qed.
Lemma lin_of_dB y : 0 < dB2lin y /\ lin2dB (dB2lin y) = Some y.
Proof.
  assert (H : 0 < dB2lin y) by (unfold dB2lin, Rpower; apply exp_pos). split; [exact H|].
  unfold lin2dB. destruct (Rlt_dec 0 (dB2lin y)); [|contradiction]. f_equal.
  unfold dB2lin, Rpower. rewrite ln_exp. pose proof ln10_pos. field. lra.
Qed.

(** ** means *)
Lemma Csum_map_sub m l : Csum (map (fun z => (z - m)%C) l) = (Csum l - Cscal (INR (length l)) m)%C.
Proof.
  induction l as [|a l IH]; [unfold Csum; cbn [map fold_right length]; change (INR 0) with 0; cring|].
  cbn [map length]. rewrite !Csum_cons, IH, S_INR. cring.
Qed.
Lemma center_mean E : E <> [] -> Csum (center_row E) = C0.
Proof.
  intros H. unfold center_row. rewrite Csum_map_sub. unfold Cmean.
  assert (0 < INR (length E)) by (apply lt_0_INR; destruct E; [contradiction|cbn; lia]).
  apply C_eq; cbn; field; lra.
Qed.
Lemma center_length E : length (center_row E) = length E.
Proof. apply map_length. Qed.
Lemma mean_power_nonneg x : 0 <= mean_power x.
Proof.
  unfold mean_power, Rmean. rewrite map_length. destruct x as [|a x]; [cbn; unfold Rdiv; rewrite Rmult_0_l; lra|].
  assert (0 < INR (length (a :: x))) by (apply lt_0_INR; cbn; lia).
  apply Rmult_le_pos; [apply Rsum_nonneg; intros y Hy; apply in_map_iff in Hy; destruct Hy as (z & <- & _); apply Cnorm2_nonneg|].
  left. apply Rinv_0_lt_compat. assumption.
Qed.
Lemma mean_power_zero x : mean_power x = 0 -> forall z, In z x -> z = C0.
Proof.
  intros H z Hz. unfold mean_power, Rmean in H. rewrite map_length in H.
  assert (0 < INR (length x)) by (apply lt_0_INR; destruct x; [contradiction|cbn; lia]).
  assert (E : Rsum (map Cnorm2 x) = 0).
  { apply (Rmult_eq_reg_r (/ INR (length x))); [rewrite Rmult_0_l; exact H|]. apply Rinv_neq_0_compat. lra. }
  apply Cnorm2_zero. eapply (Rsum_zero_nonneg (map Cnorm2 x)); [|exact E|apply in_map; exact Hz].
  intros y Hy. apply in_map_iff in Hy. destruct Hy as (w & <- & _). apply Cnorm2_nonneg.
Qed.
Lemma center_const x : mean_power (center_row x) = 0 -> constant x.
Proof.
  intros H. assert (K : forall a, In a x -> a = Cmean x).
  { intros a Ha. pose proof (mean_power_zero _ H (a - Cmean x)%C) as E.
    assert (In (a - Cmean x)%C (center_row x)) by (apply (in_map (fun z => (z - Cmean x)%C)); exact Ha).
    specialize (E H0). replace a with ((a - Cmean x) + Cmean x)%C by ring. rewrite E. ring. }
  intros a b Ha Hb. rewrite (K a Ha), (K b Hb). reflexivity.
Qed.
Lemma Csum_repeat a l : (forall z, In z l -> z = a) -> Csum l = Cscal (INR (length l)) a.
Proof.
  induction l as [|b l IH]; intros H; [unfold Csum; cbn [fold_right length]; change (INR 0) with 0; cring|].
  cbn [length]. rewrite Csum_cons, IH, S_INR, (H b); [cring|left; reflexivity|intros; apply H; right; assumption].
Qed.
Lemma const_center x : constant x -> mean_power (center_row x) = 0.
Proof.
  intros H. destruct x as [|a x]; [unfold mean_power, Rmean; cbn; unfold Rdiv; ring|].
  assert (K : forall z, In z (a :: x) -> z = a) by (intros z Hz; apply H; [exact Hz|left; reflexivity]).
  assert (M : Cmean (a :: x) = a).
  { unfold Cmean. rewrite (Csum_repeat a) by exact K.
    assert (0 < INR (length (a :: x))) by (apply lt_0_INR; cbn; lia).
    apply C_eq; unfold Cscal; cbn [fst snd]; field; lra. }
  unfold mean_power, Rmean. 
  assert (Z : Rsum (map Cnorm2 (center_row (a :: x))) = 0); [|rewrite Z; unfold Rdiv; ring].
  unfold center_row. rewrite map_map, M.
  rewrite (map_ext_in _ (fun _ => 0)); [rewrite Rsum_map_const; ring|].
  intros z Hz. rewrite (K z Hz). unfold Cnorm2, Csub. cbn [fst snd]. ring.
Qed.

Lemma Csum_scal r l : Csum (map (Cscal r) l) = Cscal r (Csum l).
Proof. induction l as [|a l IH]; [unfold Csum; cbn [map fold_right]; cring|]. cbn [map]. rewrite !Csum_cons, IH. cring. Qed.
Lemma power_scal r l : Rsum (map Cnorm2 (map (Cscal r) l)) = r * r * Rsum (map Cnorm2 l).
Proof.
  rewrite map_map. rewrite (map_ext _ (fun z => (r * r) * Cnorm2 z)) by (intros; apply Cnorm2_scal). apply Rsum_map_scal.
Qed.

Lemma nc_row_full x : ~ constant x -> exists y a, a = / sqrt (mean_power (center_row x)) /\ 0 < sqrt (mean_power (center_row x)) /\
  nc_row x = map Some y /\ shifted_scaled (sample_mean x) a x y /\
  sample_mean y = C0 /\ sample_power y = 1 /\ nc_row y = map Some y.
Proof.
  intros H. assert (Hne : x <> []) by (intros ->; apply H; intros a b []).
  assert (HL : 0 < INR (length x)) by (apply lt_0_INR; destruct x; [contradiction|cbn; lia]).
  set (P := mean_power (center_row x)).
  assert (HP : 0 < P).
  { destruct (Rle_lt_or_eq_dec 0 P (mean_power_nonneg _)) as [h|h]; [exact h|]. exfalso. apply H. apply center_const. symmetry. exact h. }
  assert (Hs : 0 < sqrt P) by (apply sqrt_lt_R0; exact HP).
  pose proof (sqrt_sqrt P ltac:(lra)) as Hss.
  set (y := map (Cscal (/ sqrt P)) (center_row x)).
  assert (E1 : nc_row x = map Some y).
  { unfold nc_row, cdiv_row, y. fold P. rewrite (map_map (Cscal (/ sqrt P)) Some). apply map_ext. intros z.
    destruct (Req_EM_T (sqrt P) 0); [lra|reflexivity]. }
  assert (Ly : length y = length x) by (unfold y; rewrite map_length; apply center_length).
  assert (My : Csum y = C0).
  { unfold y. rewrite Csum_scal, center_mean by exact Hne. cring. }
  assert (Py : mean_power y = 1).
  { unfold mean_power, Rmean, y. rewrite power_scal. rewrite !map_length.
    replace (/ sqrt P * / sqrt P * Rsum (map Cnorm2 (center_row x)) / INR (length (center_row x)))
      with (/ (sqrt P * sqrt P) * (Rsum (map Cnorm2 (center_row x)) / INR (length (center_row x)))) by (rewrite center_length; field; lra).
    replace (Rsum (map Cnorm2 (center_row x)) / INR (length (center_row x))) with P
      by (unfold P, mean_power, Rmean; rewrite map_length; reflexivity).
    rewrite Hss. field. lra. }
  exists y, (/ sqrt P). split; [reflexivity|]. split; [exact Hs|]. split; [exact E1|]. split.
  { split; [apply Rinv_0_lt_compat; exact Hs|]. unfold y, center_row. rewrite map_map. reflexivity. }
  split; [unfold sample_mean; rewrite My; cring|]. split.
  { unfold mean_power, Rmean in Py. rewrite map_length in Py. exact Py. }
  unfold nc_row. assert (Ec : center_row y = y).
  { unfold center_row, Cmean. rewrite My. rewrite <- (map_id y) at 2. apply map_ext. intros z. cring. }
  rewrite Ec, Py, sqrt_1. unfold cdiv_row. apply map_ext. intros z.
  destruct (Req_EM_T 1 0); [lra|]. apply f_equal. apply C_eq; unfold Cscal; cbn [fst snd]; field.
Qed.
Lemma nc_row_ok x : ~ constant x -> exists y a, nc_row x = map Some y /\ shifted_scaled (sample_mean x) a x y /\
  sample_mean y = C0 /\ sample_power y = 1 /\ nc_row y = map Some y.
Proof. intros H. destruct (nc_row_full x H) as (y & a & _ & _ & K). exists y, a. exact K. Qed.
Lemma nc_row_const x : constant x -> nc_row x = map (fun _ => None) x.
Proof.
  intros H. unfold nc_row, cdiv_row. rewrite (const_center x H), sqrt_0. unfold center_row. rewrite map_map. apply map_ext.
  intros z. destruct (Req_EM_T 0 0); [reflexivity|contradiction].
Qed.
Lemma nc_all E : Forall (fun x => ~ constant x) E -> exists F, normalise_and_center E = map (map Some) F /\
  Forall2 (fun x y => (exists a, shifted_scaled (sample_mean x) a x y) /\ sample_mean y = C0 /\ sample_power y = 1) E F /\
  normalise_and_center F = map (map Some) F.
Proof.
  induction 1 as [|x E Hx HE (F & E1 & E2 & E3)]; [exists []; repeat split; constructor|].
  destruct (nc_row_ok x Hx) as (y & a & H1 & H2 & H3 & H4 & H5). exists (y :: F).
  unfold normalise_and_center in *. cbn [map]. rewrite H1, E1, H5, E3. split; [reflexivity|]. split; [|reflexivity].
  constructor; [|exact E2]. split; [exists a; exact H2|]. split; assumption.
Qed.

(** the pilot version *)
Lemma nc_pil_row_ok idx x pil : mask_get idx x = Ok pil -> ~ constant pil ->
  exists y a, nc_pil_row idx x = Ok (map Some y) /\ shifted_scaled (sample_mean pil) a x y /\
  exists pil', mask_get idx y = Ok pil' /\ sample_mean pil' = C0 /\ sample_power pil' = 1.
Proof.
  intros Hm H. destruct (nc_row_full pil H) as (p & a & Ea & HP & E1 & (Ha & E2) & E3 & E4 & _).
  exists (map (fun z => Cscal a (z - sample_mean pil)%C) x), a. subst a.
  set (P := sqrt (mean_power (center_row pil))) in *.
  split.
  { unfold nc_pil_row. rewrite Hm. cbn [bind]. fold P. apply f_equal. unfold cdiv_row. rewrite !map_map. apply map_ext.
    intros z. destruct (Req_EM_T P 0); [lra|reflexivity]. }
  split; [split; [exact Ha|reflexivity]|].
  exists p. split; [|split; assumption]. rewrite E2. clearbody P. clear - Hm.
  unfold mask_get in *. rewrite map_length. destruct (length idx =? length x)%nat; [|discriminate].
  injection Hm as <-. apply f_equal.
  generalize (sample_mean (mask_sel idx x)). intros m. revert idx. induction x as [|a0 x IH]; intros [|b idx]; try reflexivity.
  - destruct b; reflexivity.
  - destruct b; cbn [map mask_sel]; [apply (f_equal2 cons); [reflexivity|]|]; apply IH.
Qed.
