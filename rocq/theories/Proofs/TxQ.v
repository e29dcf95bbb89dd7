(** ENOB noise, clipping, pre-compensation of the DAC. *)
From Coq Require Import List Arith ZArith Reals Lra Lia.
From Verif Require Import Common.Py Common.Cplx Common.ListX Common.SumX Common.Dft Model.Helpers Model.Impair Model.Filters Model.Transmitter
  Spec.Seq Spec.Equal Spec.ImpairSpec Spec.FilterSpec Spec.TxS Proofs.PhaseQ Proofs.ImpairR Proofs.ImpairS Proofs.FiltersP Proofs.TxP.
Import ListNotations.
Local Open Scope R_scope.

(** ** ENOB *)
Lemma Rpower2_pos x : 0 < Rpower 2 x.
Proof. unfold Rpower. apply exp_pos. Qed.
Lemma sigma_sq m e : enob_noise_power m e = quant_sigma m e ^ 2.
Proof.
  unfold enob_noise_power, quant_sigma. pose proof (Rpower2_pos e). pose proof (Rpower2_pos (e - 1)).
  assert (E : Rpower 2 e = 2 * Rpower 2 (e - 1)).
  { replace e with (1 + (e - 1)) at 1 by ring. rewrite Rpower_plus, Rpower_1 by lra. reflexivity. }
  rewrite E. pose proof (sqrt_sqrt 12 ltac:(lra)) as S. pose proof (sqrt_lt_R0 12 ltac:(lra)).
  transitivity ((m / Rpower 2 (e - 1)) ^ 2 / (sqrt 12 * sqrt 12)); [rewrite S; reflexivity|]. field. lra.
Qed.
Lemma sigma_pos m e : 0 < m -> 0 < quant_sigma m e.
Proof.
  intros H. unfold quant_sigma. pose proof (Rpower2_pos e). pose proof (sqrt_lt_R0 12 ltac:(lra)).
  apply Rmult_lt_0_compat; [apply Rmult_lt_0_compat; [lra|]|]; apply Rinv_0_lt_compat; assumption.
Qed.
Lemma sqrt_two_half s : 0 <= s -> sqrt (2 * s ^ 2) / sqrt 2 = s.
Proof.
  intros H. pose proof (sqrt_lt_R0 2 ltac:(lra)). rewrite sqrt_mult by nra. rewrite sqrt_pow2 by exact H. field. lra.
Qed.
Lemma sq_list_pos (l : list C) : (exists z, In z l /\ z <> C0) -> 0 < Rsum (map Cnorm2 l).
Proof.
  induction l as [|a l IH]; intros (z & I & N); [destruct I|]. cbn [map Rsum fold_right].
  assert (P : 0 <= Rsum (map Cnorm2 l)). { clear. induction l as [|b l IH]; cbn; [lra|]. pose proof (Cnorm2_nonneg b). unfold Rsum in IH. lra. }
  destruct I as [->|I].
  - pose proof (Cnorm2_nonneg z). assert (Cnorm2 z <> 0) by (intros E; apply N, Cnorm2_zero, E). unfold Rsum in P. lra.
  - pose proof (Cnorm2_nonneg a). specialize (IH (ex_intro _ z (conj I N))). unfold Rsum in IH. lra.
Qed.
Lemma peak_power m l : 0 < m -> peak m l -> 0 < sample_power l.
Proof.
  intros Hm (_ & z & I & E). unfold sample_power. apply Rmult_lt_0_compat.
  - apply sq_list_pos. exists z. split; [exact I|]. intros ->. unfold C0 in E. cbn [fst snd] in E. rewrite Rabs_R0 in E. lra.
  - apply Rinv_0_lt_compat, lt_0_INR. destruct l; [destruct I|cbn; lia].
Qed.
Lemma mean_power_sample l : mean_power l = sample_power l.
Proof. unfold mean_power, sample_power, Rmean. rewrite map_length. reflexivity. Qed.

Lemma enob_ok sig enob nr ni p n m : shape sig p n -> shape nr p n -> shape ni p n -> 0 < m -> peak m (concat sig) ->
  exists out snr, apply_enob_as_awgn sig enob nr ni = Ok (out, Some snr) /\ shape out p n /\
    (forall i row a b row', nth_error sig i = Some row -> nth_error nr i = Some a -> nth_error ni i = Some b -> nth_error out i = Some row' ->
       forall k z x y, nth_error row k = Some z -> nth_error a k = Some x -> nth_error b k = Some y ->
         nth_error row' k = Some (z + Cscal (quant_sigma m enob) (x, y))%C) /\
    Rpower 10 (snr / 10) * (2 * quant_sigma m enob ^ 2) = sample_power (concat sig).
Proof.
  intros S1 S2 S3 Hm Pm. unfold apply_enob_as_awgn. rewrite (row_peak_spec _ _ Pm). cbn [bind]. rewrite sigma_sq.
  pose proof (sigma_pos m enob Hm) as Sp. pose proof (peak_power _ _ Hm Pm) as Pp.
  destruct (Req_EM_T (quant_sigma m enob ^ 2) 0) as [E|_]; [nra|]. rewrite mean_power_sample.
  assert (Q : 0 < sample_power (concat sig) / 2 / quant_sigma m enob ^ 2).
  { apply Rmult_lt_0_compat; [lra|]. apply Rinv_0_lt_compat. nra. }
  destruct (dB_of_lin _ Q) as (snr & L1 & L2). rewrite L1. do 2 eexists. split; [reflexivity|].
  split; [apply awgn_shape; assumption|]. split.
  - intros i row a b row' H1 H2 H3 H4.
    assert (La : length a = length row /\ length b = length row).
    { destruct S1 as (_ & R1), S2 as (_ & R2), S3 as (_ & R3). unfold rect in *. rewrite Forall_forall in *.
      rewrite (R1 _ (nth_error_In _ _ H1)), (R2 _ (nth_error_In _ _ H2)), (R3 _ (nth_error_In _ _ H3)). split; reflexivity. }
    destruct La as (L3 & L4).
    destruct (awgn_nth sig (sqrt (2 * quant_sigma m enob ^ 2)) nr ni i row a b H1 H2 H3 L3 L4) as (r & R1 & R2 & R3).
    rewrite R1 in H4. injection H4 as ->. intros k z x y K1 K2 K3. rewrite (R3 k z x y K1 K2 K3), sqrt_two_half by lra. reflexivity.
  - unfold dB2lin in L2. rewrite L2. field. nra.
Qed.

(** real signals: the reported value is half the power ratio *)
Lemma enob_real_ok sig enob nr ni p n m : shape sig p n -> shape nr p n -> shape ni p n -> 0 < m ->
  (forall x, In x (concat sig) -> Rabs x <= m) -> (exists x, In x (concat sig) /\ Rabs x = m) ->
  exists out snr, apply_enob_as_awgn_real sig enob nr ni = Ok (out, Some snr) /\
    (forall i row a b, nth_error sig i = Some row -> nth_error nr i = Some a -> nth_error ni i = Some b ->
       exists row', nth_error out i = Some row' /\ forall k x y w, nth_error row k = Some x -> nth_error a k = Some y -> nth_error b k = Some w ->
         nth_error row' k = Some (x + quant_sigma m enob * y)) /\
    Rpower 10 (snr / 10) * (2 * quant_sigma m enob ^ 2) = Rsum (map (fun x => x ^ 2) (concat sig)) / INR (length (concat sig)).
Proof.
  intros S1 S2 S3 Hm Bd (x0 & I0 & M0). unfold apply_enob_as_awgn_real.
  assert (Mx : rmaxl (map Rabs (concat sig)) = Ok m).
  { apply rmaxl_spec. split; [apply in_map_iff; exists x0; auto|]. intros y Hy. apply in_map_iff in Hy as (x & <- & Hx). apply Bd, Hx. }
  rewrite Mx. cbn [bind]. rewrite sigma_sq. pose proof (sigma_pos m enob Hm) as Sp.
  destruct (Req_EM_T (quant_sigma m enob ^ 2) 0) as [E|_]; [nra|].
  assert (M : Rmean (map (fun x => Rabs x ^ 2) (concat sig)) = Rsum (map (fun x => x ^ 2) (concat sig)) / INR (length (concat sig))).
  { unfold Rmean. rewrite map_length. f_equal. f_equal. apply map_ext. intros x. apply pow2_abs. }
  rewrite M. set (P := Rsum _ / INR _).
  assert (HP : 0 < P).
  { unfold P. apply Rmult_lt_0_compat.
    - clear -I0 M0 Hm. induction (concat sig) as [|y l IH]; [destruct I0|]. cbn [map Rsum fold_right].
      assert (NN : forall l, 0 <= Rsum (map (fun x => x ^ 2) l)). { clear. induction l as [|x l IH]; unfold Rsum in *; cbn [map fold_right]; [lra|]. pose proof (pow2_ge_0 x). lra. }
      destruct I0 as [->|I0].
      + specialize (NN l). unfold Rsum in NN. rewrite <- (pow2_abs x0), M0. nra.
      + specialize (IH I0). unfold Rsum in IH. pose proof (pow2_ge_0 y). lra.
    - apply Rinv_0_lt_compat, lt_0_INR. destruct (concat sig); [destruct I0|cbn; lia]. }
  assert (Q : 0 < P / 2 / quant_sigma m enob ^ 2). { apply Rmult_lt_0_compat; [lra|]. apply Rinv_0_lt_compat. nra. }
  destruct (dB_of_lin _ Q) as (snr & L1 & L2). rewrite L1. do 2 eexists. split; [reflexivity|]. split.
  - intros i row a b H1 H2 H3. rewrite nth_error_map, (combine_nth' _ _ _ _ _ H1 (combine_nth' _ _ _ _ _ H2 H3)). cbn [option_map fst snd].
    eexists. split; [reflexivity|]. intros k x y w K1 K2 K3. rewrite nth_error_map.
    pose proof (combine_nth' _ _ _ _ _ K1 (combine_nth' _ _ _ _ _ K2 K3)) as K. unfold C in *. rewrite K.
    cbn [option_map fst snd]. rewrite sqrt_two_half by lra. reflexivity.
  - unfold dB2lin in L2. rewrite L2. field. nra.
Qed.

(** ** clipping *)
Lemma rescale_signal_ok rows peaks s : Forall2 (fun row m => 0 < m /\ peak m row) rows peaks ->
  rescale_signal (D2 rows) [s] = Ok (map (map Some) (map (fun p => map (Cscal (s / snd p)) (fst p)) (combine rows peaks))).
Proof.
  intros F. unfold rescale_signal.
  assert (P : exists ms, mapM row_peak rows = Ok ms).
  { induction F as [|r m rows peaks (Hm & Pm) F (ms & IH)]; [exists []; reflexivity|]. cbn [mapM].
    rewrite (row_peak_spec _ _ Pm), IH. cbn [bind]. eexists; reflexivity. }
  destruct P as (ms & ->). cbn [bind].
  assert (B : forall X : list (list C), broadcast X [s] = Ok (map (fun x => (x, s)) X)) by (intros [|? [|? ?]]; reflexivity).
  rewrite B. cbn [bind]. clear B ms. induction F as [|r m rows peaks (Hm & Pm) F IH]; [reflexivity|].
  cbn [map mapM combine fst snd]. rewrite IH, (rescale_row_ok r m s Hm Pm). cbn [bind]. rewrite (map_map (Cscal (s / m)) Some). reflexivity.
Qed.
Lemma limit_scal a x : 0 < a -> limit 1 (x / a) = limit a x / a.
Proof.
  intros Ha. unfold limit, Rmax, Rmin. set (y := x / a). assert (D : x = y * a) by (unfold y; field; lra). clearbody y. subst x.
  destruct (Rle_dec 1 y), (Rle_dec a (y * a)); repeat match goal with |- context [Rle_dec ?u ?v] => destruct (Rle_dec u v) end;
    repeat match goal with H : ~ _ <= _ |- _ => apply Rnot_le_lt in H end; try lra; try (field; lra); try (exfalso; nra).
Qed.
Lemma DAC_clip des sig peaks fs c nr ni : Forall2 (fun row m => 0 < m /\ peak m row) sig peaks ->
  0 < c -> / 100000000 + / 100000 < Rabs (c - 1) ->
  sim_DAC_response des sig fs (mk_dac c 0 0 None) nr ni =
  Ok (Some (map (fun p => map (fun z => Cscal (/ (c * snd p)) (limit (c * snd p) (fst z), limit (c * snd p) (snd z))) (fst p)) (combine sig peaks))).
Proof.
  intros F Hc Nc. unfold sim_DAC_response, dac_clip. cbn [q_clip q_bits q_enob q_filter].
  assert (I1 : isclose c 1 = false). { unfold isclose. rewrite Rabs_R1. destruct (Rle_dec _ _); [lra|reflexivity]. }
  rewrite I1. destruct (Req_EM_T c 0); [lra|]. rewrite (rescale_signal_ok _ peaks _ F). cbn [bind]. rewrite no_nan_some. cbn [option_map Nat.eqb bind].
  assert (I0 : isclose 0 0 = true). { unfold isclose. rewrite Rminus_0_r, Rabs_R0. destruct (Rle_dec _ _); [reflexivity|lra]. }
  rewrite I0. cbn [bind]. apply (f_equal Ok), (f_equal Some). rewrite clipper_limit by lra. rewrite map_map.
  assert (G : forall p, In p (combine sig peaks) -> 0 < snd p).
  { clear - F. induction F as [|r m rows peaks (Hm & _) F IH]; intros p Hp; [destruct Hp|]. destruct Hp as [<-|Hp]; [exact Hm|apply IH, Hp]. }
  apply map_ext_in. intros [r m] Hp. specialize (G _ Hp). cbn [fst snd] in *. rewrite map_map. apply map_ext. intros z. unfold Cscal. cbn [fst snd].
  assert (0 < c * m) by nra.
  replace (1 / c / m * fst z) with (fst z / (c * m)) by (field; split; lra).
  replace (1 / c / m * snd z) with (snd z / (c * m)) by (field; split; lra).
  rewrite !limit_scal by assumption. apply C_eq; cbn [fst snd]; unfold Rdiv; ring.
Qed.
Lemma DAC_off des sig fs c nr ni : Rabs (c - 1) <= / 100000000 + / 100000 ->
  sim_DAC_response des sig fs (mk_dac c 0 0 None) nr ni = Ok (Some sig).
Proof.
  intros H. unfold sim_DAC_response, dac_clip. cbn [q_clip q_bits q_enob q_filter].
  assert (I1 : isclose c 1 = true). { unfold isclose. rewrite Rabs_R1. destruct (Rle_dec _ _); [reflexivity|lra]. }
  rewrite I1. cbn [bind Nat.eqb].
  assert (I0 : isclose 0 0 = true). { unfold isclose. rewrite Rminus_0_r, Rabs_R0. destruct (Rle_dec _ _); [reflexivity|lra]. }
  rewrite I0. reflexivity.
Qed.

(** ** pre-compensation *)
Lemma Cinv_mul z : z <> C0 -> (Cinv z * z)%C = C1.
Proof.
  intros H. unfold Cinv. assert (N : Cnorm2 z <> 0) by (intros E; apply H, Cnorm2_zero, E).
  unfold Cscal, Cconj, Cmul, C1. apply C_eq; cbn [fst snd]; unfold Cnorm2 in *; field; exact N.
Qed.
Lemma sec_resp_spec s w : sec_den s w <> C0 -> (sec_resp s w * sec_den s w)%C = sec_num s w.
Proof.
  intros H. unfold sec_resp.
  assert (Z : (Cexpi (- w) * Cexpi (- w))%C = Cexpi (- (2 * w))) by (rewrite <- Cexpi_add; f_equal; ring).
  rewrite Z.
  assert (D : (C1 + Cscal (s_a1 s) (Cexpi (- w)) + Cscal (s_a2 s) (Cexpi (- (2 * w))))%C = sec_den s w) by (unfold sec_den; cring).
  assert (U : (RtoC (s_b0 s) + Cscal (s_b1 s) (Cexpi (- w)) + Cscal (s_b2 s) (Cexpi (- (2 * w))))%C = sec_num s w) by (unfold sec_num; cring).
  rewrite D, U. transitivity (sec_num s w * (Cinv (sec_den s w) * sec_den s w))%C; [ring|]. rewrite Cinv_mul by exact H. ring.
Qed.
Lemma sosfreqz_transfer sos w : (forall s, In s sos -> sec_den s w <> C0) ->
  forall h0, (fold_left (fun h s => (h * sec_resp s w)%C) sos h0 * cprod (map (fun s => sec_den s w) sos))%C
             = (h0 * cprod (map (fun s => sec_num s w) sos))%C.
Proof.
  induction sos as [|s sos IH]; intros H h0; cbn [fold_left map cprod fold_right]; [reflexivity|].
  fold (cprod (map (fun s => sec_den s w) sos)). fold (cprod (map (fun s => sec_num s w) sos)).
  set (h := fold_left _ sos _) in *.
  assert (E : (h * cprod (map (fun s => sec_den s w) sos))%C = ((h0 * sec_resp s w) * cprod (map (fun s => sec_num s w) sos))%C).
  { apply IH. intros t Ht. apply H. right; exact Ht. }
  transitivity ((h * cprod (map (fun s => sec_den s w) sos)) * sec_den s w)%C; [ring|]. rewrite E.
  rewrite <- (sec_resp_spec s w) by (apply H; left; reflexivity). ring.
Qed.

(** completing the square *)
Lemma wiener n al d q : 0 < n * Cnorm2 d + al ->
  let p := Cscal (n / (n * Cnorm2 d + al)) (Cconj d) in
  n * Cnorm2 (C1 - d * q)%C + al * Cnorm2 q =
  n * Cnorm2 (C1 - d * p)%C + al * Cnorm2 p + (n * Cnorm2 d + al) * Cnorm2 (q - p)%C.
Proof.
  intros H p. subst p. destruct d as [d1 d2], q as [q1 q2]. unfold Cnorm2, Csub, Cmul, Cscal, Cconj, C1 in *. cbn [fst snd] in *. field. lra.
Qed.
Lemma wiener_gain n al d : 0 <= n -> 0 < al -> exists g, 0 <= g < 1 /\
  (d * Cscal (n / (n * Cnorm2 d + al)) (Cconj d))%C = RtoC g.
Proof.
  intros Hn Ha. pose proof (Cnorm2_nonneg d). assert (0 <= n * Cnorm2 d) by nra.
  exists (n * Cnorm2 d / (n * Cnorm2 d + al)). split.
  - split; [apply Rmult_le_pos; [assumption|]; apply Rlt_le, Rinv_0_lt_compat; lra|]. apply Rmult_lt_reg_r with (n * Cnorm2 d + al); [lra|].
    unfold Rdiv. rewrite Rmult_assoc, Rinv_l by lra. lra.
  - transitivity (Cscal (n / (n * Cnorm2 d + al)) (d * Cconj d))%C; [cring|]. rewrite Cmul_conj. unfold Cscal, RtoC. cbn [fst snd].
    apply C_eq; cbn [fst snd]; [field; lra|ring].
Qed.

Lemma seq_at N k : (k < N)%nat -> nth_error (seq 0 N) k = Some k.
Proof. intros H. rewrite (nth_error_nth' _ 0%nat) by (rewrite seq_length; exact H). rewrite seq_nth by exact H. reflexivity. Qed.
Lemma rmax_fold l : forall x, (forall y, In y l -> y <= x) -> fold_left Rmax l x = x.
Proof.
  induction l as [|y l IH]; intros x H; [reflexivity|]. cbn [fold_left]. rewrite Rmax_left by (apply H; left; reflexivity).
  apply IH. intros z Hz. apply H. right; exact Hz.
Qed.
Lemma comp_dac_ok des fb N beta PAPR cutoff order enob os sys rc :
  0 < fb -> 0 < os -> 0 < beta <= 1 -> (1 <= N)%nat -> des Bessel order cutoff (fb * os) = Ok sys ->
  (forall k s, (k < N)%nat -> In s sys -> sec_den s (2 * PI * INR k / INR N) <> C0) ->
  rcos_freq (map (bin_freq (fb * os) N) (seq 0 N)) beta (1 / fb) = Ok rc ->
  exists out (d : nat -> C), comp_dac_resp des fb N beta PAPR cutoff order enob os = Ok out /\ length out = N /\
    (forall k, (k < N)%nat -> transfer sys (2 * PI * INR k / INR N) (d k)) /\
    let n k := nth k rc 0 * fb in
    let alpha := Rpower 10 (PAPR / 10) / (6 * fb * Rpower 2 (2 * enob)) * (rsum N (fun k => n k * Cnorm2 (d k)) * (fb * os / INR N)) in
    0 <= alpha /\ (alpha = 0 -> forall k, (k < N)%nat -> nth_error out k = Some None) /\
    (0 < alpha -> forall k, (k < N)%nat -> exists p g, nth_error out k = Some (Some p) /\ 0 <= g < 1 /\ (d k * p)%C = RtoC g /\
       forall q, n k * Cnorm2 (C1 - d k * p)%C + alpha * Cnorm2 p <= n k * Cnorm2 (C1 - d k * q)%C + alpha * Cnorm2 q).
Proof.
  intros Hfb Hos Hb HN Hd Hden Hrc. unfold comp_dac_resp. destruct (Req_EM_T fb 0) as [|_]; [lra|].
  assert (HT : 0 < 1 / fb) by (apply Rmult_lt_0_compat; [lra|apply Rinv_0_lt_compat; lra]).
  unfold rcos_freq in Hrc. destruct (Req_EM_T (1 / fb) 0) as [|_]; [lra|]. destruct (Req_EM_T beta 0) as [|_]; [lra|]. injection Hrc as Hrc.
  unfold rrcos_freq, rcos_freq. destruct (Req_EM_T (1 / fb) 0) as [|_]; [lra|]. destruct (Req_EM_T beta 0) as [|_]; [lra|]. cbn [bind].
  assert (Ef : map (fun f => f * (fb * os)) (fftfreq N 1) = map (bin_freq (fb * os) N) (seq 0 N)).
  { apply nth_ext with 0 0; [unfold fftfreq; rewrite !map_length; reflexivity|]. intros k Hk. unfold fftfreq in Hk. rewrite !map_length, seq_length in Hk.
    rewrite bin_freq_eq by exact Hk. rewrite nth_map_seq by exact Hk. reflexivity. }
  rewrite Ef, Hrc. set (T := 1 / fb) in *.
  assert (Lrc : length rc = N) by (rewrite <- Hrc, !map_length, seq_length; reflexivity).
  assert (Rg : forall x, In x rc -> 0 <= x <= T).
  { intros x Hx. rewrite <- Hrc in Hx. apply in_map_iff in Hx as (f & <- & _). apply rc_range; lra. }
  assert (R0 : exists rc', rc = T :: rc').
  { destruct N as [|N]; [lia|]. rewrite <- Hrc. cbn [seq map]. eexists. apply (f_equal2 cons); [|reflexivity].
    transitivity (rcos_at beta T 0); [f_equal; unfold bin_freq; replace (2 * 0 <? S N)%nat with true by (symmetry; apply Nat.ltb_lt; lia); change (INR 0) with 0; ring|]. apply rc_zero; lra. }
  destruct R0 as (rc' & E0).
  assert (Mx : rmaxl (map sqrt rc) = Ok (sqrt T)).
  { rewrite E0. cbn [map rmaxl]. apply (f_equal Ok). apply rmax_fold. intros y Hy. apply in_map_iff in Hy as (x & <- & Hx).
    apply sqrt_le_1_alt. apply Rg. rewrite E0. right; exact Hx. }
  rewrite Mx. cbn [bind]. rewrite Hd. cbn [bind].
  set (n := fun k => nth k rc 0 * fb). set (d := fun k => nth k (sosfreqz sys N) C0).
  assert (Ln : map (fun v => (v / sqrt T) ^ 2) (map sqrt rc) = map n (seq 0 N)).
  { apply nth_ext with 0 0; [rewrite !map_length, seq_length; exact Lrc|]. intros k Hk. rewrite !map_length in Hk.
    rewrite map_map, nth_map_seq by (rewrite <- Lrc; exact Hk). rewrite (nth_indep _ 0 ((fun x => (sqrt x / sqrt T) ^ 2) 0)) by (rewrite map_length; exact Hk).
    rewrite (map_nth (fun x => (sqrt x / sqrt T) ^ 2)). unfold n. pose proof (Rg (nth k rc 0) (nth_In _ _ Hk)) as (G1 & G2).
    pose proof (sqrt_lt_R0 T HT). transitivity (sqrt (nth k rc 0) ^ 2 / sqrt T ^ 2); [field; lra|]. rewrite !pow2_sqrt by lra. unfold T. field. lra. }
  assert (Ld : sosfreqz sys N = map d (seq 0 N)).
  { unfold d. transitivity (map (fun k => nth k (sosfreqz sys N) C0) (seq 0 (length (sosfreqz sys N)))); [apply list_as_map|].
    unfold sosfreqz at 2. rewrite map_length, seq_length. reflexivity. }
  rewrite Ln, Ld.
  assert (Cb : combine (map n (seq 0 N)) (map d (seq 0 N)) = map (fun k => (n k, d k)) (seq 0 N)).
  { generalize (seq 0 N). induction l as [|k l IH]; [reflexivity|]. cbn [map combine]. rewrite IH. reflexivity. }
  rewrite Cb, !map_map. cbn [fst snd].
  assert (Es : Rsum (map (fun k => Cabs (d k) ^ 2 * n k * (fb * os / INR N)) (seq 0 N)) = rsum N (fun k => n k * Cnorm2 (d k)) * (fb * os / INR N)).
  { fold (rsum N (fun k => Cabs (d k) ^ 2 * n k * (fb * os / INR N))). transitivity (fb * os / INR N * rsum N (fun k => n k * Cnorm2 (d k))); [|ring]. rewrite <- rsum_scal. apply rsum_ext. intros k _.
    replace (Cabs (d k) ^ 2) with (Cnorm2 (d k)) by (rewrite <- Cabs_sqr; ring). ring. }
  rewrite Es. set (K := Rpower 10 (PAPR / 10) / (6 * fb * Rpower 2 (2 * enob))).
  set (alpha := K * (rsum N (fun k => n k * Cnorm2 (d k)) * (fb * os / INR N))).
  assert (Nn : forall k, (k < N)%nat -> 0 <= n k).
  { intros k Hk. unfold n. apply Rmult_le_pos; [|lra]. apply Rg, nth_In. rewrite Lrc. exact Hk. }
  assert (HK : 0 < K). { unfold K. apply Rmult_lt_0_compat; [unfold Rpower; apply exp_pos|]. apply Rinv_0_lt_compat. pose proof (Rpower2_pos (2 * enob)). nra. }
  assert (Hdf : 0 < fb * os / INR N). { apply Rmult_lt_0_compat; [nra|]. apply Rinv_0_lt_compat, lt_0_INR. lia. }
  assert (Hs : 0 <= rsum N (fun k => n k * Cnorm2 (d k))).
  { apply rsum_nonneg. intros k Hk. apply Rmult_le_pos; [apply Nn, Hk|apply Cnorm2_nonneg]. }
  exists (map (fun k => let den := n k * Cabs (d k) ^ 2 + alpha in if Req_EM_T den 0 then None else Some (Cscal (n k / den) (Cconj (d k)))) (seq 0 N)), d.
  split; [reflexivity|]. split; [rewrite map_length, seq_length; reflexivity|]. split.
  { intros k Hk. unfold transfer, d, sosfreqz. rewrite nth_map_seq by exact Hk. rewrite sosfreqz_transfer; [ring|]. intros s Hs'. apply Hden; assumption. }
  assert (A0 : 0 <= alpha) by (unfold alpha; apply Rmult_le_pos; [lra|]; apply Rmult_le_pos; lra).
  match goal with |- _ /\ (_ -> ?A) /\ _ => change (0 <= alpha /\ (alpha = 0 -> A) /\ (0 < alpha -> forall k, (k < N)%nat -> exists p g,
    nth_error (map (fun k => let den := n k * Cabs (d k) ^ 2 + alpha in if Req_EM_T den 0 then None else Some (Cscal (n k / den) (Cconj (d k)))) (seq 0 N)) k = Some (Some p) /\
    0 <= g < 1 /\ (d k * p)%C = RtoC g /\
    forall q, n k * Cnorm2 (C1 - d k * p)%C + alpha * Cnorm2 p <= n k * Cnorm2 (C1 - d k * q)%C + alpha * Cnorm2 q)) end.
  split; [exact A0|]. split.
  - intros Za k Hk. rewrite (nth_error_map), (seq_at N k Hk). cbn [option_map].
    assert (S0 : rsum N (fun k => n k * Cnorm2 (d k)) = 0). { unfold alpha in Za. apply Rmult_integral in Za as [Za|Za]; [lra|]. apply Rmult_integral in Za as [Za|Za]; [exact Za|lra]. }
    assert (Zk : n k * Cnorm2 (d k) = 0).
    { apply (rsum_zero_inv N (fun k => n k * Cnorm2 (d k))); [|exact S0|exact Hk]. intros i Hi. apply Rmult_le_pos; [apply Nn, Hi|apply Cnorm2_nonneg]. }
    replace (Cabs (d k) ^ 2) with (Cnorm2 (d k)) by (rewrite <- Cabs_sqr; ring). rewrite Zk, Za. destruct (Req_EM_T (0 + 0) 0); [reflexivity|lra].
  - intros Pa k Hk. replace (Cabs (d k) ^ 2) with (Cnorm2 (d k)) by (rewrite <- Cabs_sqr; ring).
    specialize (Nn k Hk). pose proof (Cnorm2_nonneg (d k)). assert (D : 0 < n k * Cnorm2 (d k) + alpha) by nra.
    destruct (wiener_gain (n k) alpha (d k) Nn Pa) as (g & Hg & Eg). exists (Cscal (n k / (n k * Cnorm2 (d k) + alpha)) (Cconj (d k))), g.
    split; [|split; [exact Hg|split; [exact Eg|]]].
    + rewrite nth_error_map, (seq_at N k Hk). cbn [option_map].
      replace (Cabs (d k) ^ 2) with (Cnorm2 (d k)) by (rewrite <- Cabs_sqr; ring). destruct (Req_EM_T _ 0); [lra|reflexivity].
    + intros q. rewrite (wiener (n k) alpha (d k) q D).
      pose proof (Cnorm2_nonneg (q - Cscal (n k / (n k * Cnorm2 (d k) + alpha)) (Cconj (d k)))%C). nra.
Qed.
