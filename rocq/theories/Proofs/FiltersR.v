(** Concrete runs of the front end and the filters. *)
From Coq Require Import Reals List Lra Lia ZArith Arith Psatz Bool.
From Coq Require Import ZifyBool ZifyNat ZifyN.
From Verif Require Import Common.Py Common.Cplx Common.SumX Common.Angle Common.ListX Common.Dft
  Model.Helpers Model.Phase Model.Impair Model.Frontend Model.Filters Spec.ImpairSpec Spec.FilterSpec
  Proofs.ImpairQ Proofs.ImpairS Proofs.ImpairT Proofs.FrontendP Proofs.FiltersP Proofs.FiltersQ.
Import ListNotations.
Local Open Scope R_scope.

(** ** Filters over one and two dimensions *)
Lemma shift_single {A} (a : A) : fftshift [a] = [a].
Proof. reflexivity. Qed.
Lemma gauss1 row fs cutoff : filter_gauss (D1 row) fs cutoff =
  D1 (shaped (map (fun f => RtoC (gauss_gain cutoff f)) (filter_freqs fs (length row))) row).
Proof.
  unfold filter_gauss, shift_all, shaped. cbn [map]. rewrite shift_single. cbn [map]. rewrite shift_single. cbn [concat]. rewrite app_nil_r. reflexivity.
Qed.
Lemma gauss_one row fs cutoff : Nat.Even (length row) -> exists out, filter_gauss (D1 row) fs cutoff = D1 out /\ filtered (gauss_gain cutoff) fs row out.
Proof. intros He. eexists. split; [apply gauss1|]. apply gauss_row_ok. exact He. Qed.
Lemma gauss_even rows fs cutoff : Nat.Even (length rows) -> Forall (fun r => Nat.Even (length r)) rows ->
  exists out, filter_gauss (D2 rows) fs cutoff = D2 out /\ Forall2 (filtered (gauss_gain cutoff) fs) rows out.
Proof.
  intros He HF. eexists. split; [apply gauss2|]. rewrite shift_twice_even by (rewrite map_length; exact He).
  clear He. induction HF as [|r l Hr HF IH]; [constructor|]. cbn [map]. constructor; [apply gauss_row_ok; exact Hr|exact IH].
Qed.
Lemma exp_one row fs cutoff : Nat.Even (length row) -> row <> [] -> exists out, filter_exp (D1 row) fs cutoff = Ok (D1 out) /\ filtered (exp_gain cutoff) fs row out.
Proof.
  intros He Hn. assert (H : (0 < length row)%nat) by (destruct row; [congruence|cbn; lia]).
  eexists. split; [|apply exp_row_ok; assumption]. apply exp1. apply exp_max; assumption.
Qed.
Lemma shift4 {A} (l : list A) : Nat.Even (length l) -> fftshift (fftshift (fftshift (fftshift l))) = l.
Proof. intros H. rewrite (shift_twice_even (fftshift (fftshift l))) by (rewrite !fftshift_length; exact H). apply shift_twice_even. exact H. Qed.
Lemma exp_even rows n fs cutoff : Nat.Even (length rows) -> Nat.Even n -> (0 < n)%nat -> rows <> [] -> Forall (fun r => length r = n) rows ->
  exists out, filter_exp (D2 rows) fs cutoff = Ok (D2 out) /\ Forall2 (filtered (exp_gain cutoff) fs) rows out.
Proof.
  intros Hr He Hn Hne HF. eexists. split; [apply (exp2 rows fs cutoff 1 n HF Hne (exp_max fs cutoff n He Hn))|].
  rewrite shift4 by (rewrite map_length; exact Hr). clear Hr Hne.
  induction HF as [|r l Hr HF IH]; [constructor|]. cbn [map]. constructor; [|exact IH].
  subst n. apply exp_row_ok; assumption.
Qed.
Lemma shift_three {A} (a b c : A) : fftshift [a; b; c] = [c; a; b].
Proof. reflexivity. Qed.
(** three modes come back in another order *)
Lemma gauss_three x y z fs cutoff ox oy oz : filter_gauss (D1 x) fs cutoff = D1 ox -> filter_gauss (D1 y) fs cutoff = D1 oy -> filter_gauss (D1 z) fs cutoff = D1 oz ->
  filter_gauss (D2 [x; y; z]) fs cutoff = D2 [oy; oz; ox].
Proof.
  rewrite !gauss1. intros Hx Hy Hz. injection Hx as <-. injection Hy as <-. injection Hz as <-. rewrite gauss2.
  cbn [map]. rewrite !shift_three. reflexivity.
Qed.
Lemma exp_three x y z fs cutoff ox oy oz : length y = length x -> length z = length x ->
  filter_exp (D1 x) fs cutoff = Ok (D1 ox) -> filter_exp (D1 y) fs cutoff = Ok (D1 oy) -> filter_exp (D1 z) fs cutoff = Ok (D1 oz) ->
  filter_exp (D2 [x; y; z]) fs cutoff = Ok (D2 [oz; ox; oy]).
Proof.
  intros L1 L2. destruct (rmaxl (map (exp_gain cutoff) (filter_freqs fs (length x)))) as [m|e] eqn:HM.
  - rewrite (exp1 x fs cutoff m HM). rewrite (exp1 y fs cutoff m) by (rewrite L1; exact HM). rewrite (exp1 z fs cutoff m) by (rewrite L2; exact HM).
    intros Hx Hy Hz. injection Hx as <-. injection Hy as <-. injection Hz as <-.
    rewrite (exp2 [x; y; z] fs cutoff m (length x)); [|repeat constructor; assumption|discriminate|exact HM].
    cbn [map]. rewrite !shift_three, L1, L2. reflexivity.
  - unfold filter_exp at 1. cbv zeta. rewrite HM. discriminate.
Qed.
Lemma tone_freq fs N k : (0 < 2 * k < N)%nat -> 0 < fs -> bin_freq fs N k = INR k * (fs / INR N) /\ 0 < bin_freq fs N k.
Proof.
  intros H Hf. unfold bin_freq. destruct (2 * k <? N)%nat eqn:B; [|lia]. split; [reflexivity|].
  apply Rmult_lt_0_compat; [apply lt_0_INR; lia|]. apply Rdiv_lt_0_compat; [exact Hf|apply lt_0_INR; lia].
Qed.
(** a tone at the cutoff frequency is 24 dB (Gauss) and 6 dB (exp) down *)
Lemma gauss_tone fs N k : Nat.Even N -> (0 < 2 * k < N)%nat -> 0 < fs ->
  filter_gauss (D1 (tone N k)) fs (INR k * (fs / INR N)) = D1 (map (Cscal (1 / 16)) (tone N k)).
Proof.
  intros He Hk Hf. destruct (tone_freq fs N k Hk Hf) as [E P].
  destruct (gauss_one (tone N k) fs (bin_freq fs N k)) as [out [E1 F]]; [rewrite tone_length; exact He|].
  rewrite <- E, E1. apply filtered_tone in F; [|lia]. rewrite gauss_at_cutoff in F by lra. rewrite F. reflexivity.
Qed.
Lemma exp_tone fs N k : Nat.Even N -> (0 < 2 * k < N)%nat -> 0 < fs ->
  filter_exp (D1 (tone N k)) fs (INR k * (fs / INR N)) = Ok (D1 (map (Cscal (1 / 2)) (tone N k))).
Proof.
  intros He Hk Hf. destruct (tone_freq fs N k Hk Hf) as [E P].
  destruct (exp_one (tone N k) fs (bin_freq fs N k)) as [out [E1 F]].
  { rewrite tone_length; exact He. }
  { intros Z. apply (f_equal (@length C)) in Z. rewrite tone_length in Z. cbn in Z. lia. }
  rewrite <- E, E1. apply filtered_tone in F; [|lia]. rewrite exp_at_cutoff in F by lra. rewrite F. reflexivity.
Qed.
Lemma power_scal g l : Rsum (map Cnorm2 (map (Cscal g) l)) = g * g * Rsum (map Cnorm2 l).
Proof. induction l as [|z l IH]; [cbn; ring|]. cbn [map]. rewrite !Rsum_cons, IH. destruct z as [a b]. unfold Cnorm2, Cscal. cbn [fst snd]. ring. Qed.
Lemma tone_power N k : (0 < N)%nat -> sample_power (tone N k) = 1.
Proof.
  intros H. unfold sample_power, Rmean, tone. rewrite map_map, !map_length, seq_length.
  assert (E : Rsum (map (fun x => Cnorm2 (Cexpi (2 * PI * INR k * INR x / INR N))) (seq 0 N)) = INR N).
  { transitivity (Rsum (map (fun _ => 1) (seq 0 N))); [f_equal; apply map_ext; intros; apply Cnorm2_expi|].
    clear. generalize 0%nat as s. induction N as [|N IH]; intros s; [reflexivity|]. cbn [seq map]. rewrite Rsum_cons, IH, S_INR. ring. }
  rewrite E. field. apply not_0_INR. lia.
Qed.
Lemma scal_power g l : sample_power (map (Cscal g) l) = g * g * sample_power l.
Proof. unfold sample_power, Rmean. rewrite !map_length, power_scal. unfold Rdiv. ring. Qed.
(** a constant of odd length is attenuated: the frequency grid has no zero *)
Lemma dft_one c : dft [c] = [c].
Proof.
  unfold dft, csum. cbn [length seq map nth INR]. apply (f_equal2 cons); [|reflexivity].
  replace (- (2 * PI * 0 * 0 / 1)) with 0 by field. rewrite Cexpi_0. cbn. cring.
Qed.
Lemma idft_one c : idft [c] = [c].
Proof. rewrite <- (dft_one c) at 1. apply idft_dft. Qed.
Lemma gauss_odd c fs cutoff : filter_gauss (D1 [c]) fs cutoff = D1 [Cscal (gauss_gain cutoff (fs / 2)) c].
Proof.
  rewrite gauss1. apply f_equal. unfold shaped, filter_freqs. cbn [length seq map].
  rewrite shift_single, dft_one, shift_single. cbn [cmul_list combine map fst snd].
  unfold cmul_list. cbn [combine map fst snd]. rewrite shift_single, idft_one, shift_single. apply (f_equal2 cons); [|reflexivity].
  replace (gauss_gain cutoff (- fs / 2 + INR 0 * (fs / INR 1))) with (gauss_gain cutoff (fs / 2)); [cring|].
  unfold gauss_gain. cbv zeta. f_equal. cbn [INR]. replace ((- fs / 2 + 0 * (fs / 1)) ^ 2) with ((fs / 2) ^ 2) by field. reflexivity.
Qed.

(** ** Delay *)
Lemma delay_two : comp_rf_delay [[1; 0; 0]] 1 1 = [[0; 0; 1]].
Proof. unfold comp_rf_delay. cbn [map]. rewrite (rf_delay_ok 1 1 [1; 0; 0] 2) by lra. reflexivity. Qed.

(** ** IQ imbalance *)
Definition iq_lost : list (list C) := [[(1, 2); (- 1, - 2); (0, 1); (0, - 1)]].
Lemma iq_lost_moments : varI (concat iq_lost) = 2 /\ covIQ (concat iq_lost) = 4 /\ varQ (concat iq_lost) = 10 /\ sample_mean (concat iq_lost) = C0.
Proof.
  assert (M : sample_mean (concat iq_lost) = C0) by (unfold sample_mean, iq_lost; cbn; apply C_eq; cbn; field).
  unfold varI, covIQ, varQ. rewrite M. unfold iq_lost. cbn. repeat split; ring.
Qed.
Lemma iq_lost_none : fst (comp_IQ_inbalance iq_lost) = None.
Proof.
  destruct (fst (comp_IQ_inbalance iq_lost)) eqn:E; [exfalso|reflexivity].
  assert (R : iq_rank (concat iq_lost)) by (apply iq_ok; eauto). destruct R as [_ [R _]]. destruct iq_lost_moments as [A [B _]]. rewrite A, B in R.
  rewrite Rabs_right in R; lra.
Qed.
Definition iq_offset : list (list C) := [[(2, 1); (0, 1); (1, 2); (1, 0)]].
Lemma iq_offset_changed : snd (comp_IQ_inbalance iq_offset) = [[(1, 0); (- 1, 0); (0, 1); (0, - 1)]] /\
  exists out, fst (comp_IQ_inbalance iq_offset) = Some out.
Proof.
  assert (M : sample_mean (concat iq_offset) = (1, 1)) by (unfold sample_mean, iq_offset; cbn; apply C_eq; cbn; field).
  split.
  - rewrite iq_arg, M. unfold iq_offset, Csub. cbn [map fst snd]. repeat (apply (f_equal2 cons)); try reflexivity; apply C_eq; cbn; lra.
  - apply iq_ok. unfold iq_rank, varI, covIQ, varQ. rewrite M. unfold iq_offset. cbn. split; [lra|]. split; [rewrite Rabs_right; lra|lra].
Qed.
(** orthonormalising correlated parts leaves unequal powers *)
Definition skewed : list C := [(1, 1); (- 1, - 1); (1, 0); (- 1, 0)].
Lemma skewed_moments : varI skewed = 4 /\ covIQ skewed = 2 /\ varQ skewed = 2.
Proof.
  assert (M : sample_mean skewed = C0) by (unfold sample_mean, skewed; cbn; apply C_eq; cbn; field).
  unfold varI, covIQ, varQ. rewrite M. unfold skewed. cbn. repeat split; ring.
Qed.
Lemma skewed_out : exists y, orthonormalize_signal [skewed] 1 = Ok [Some y] /\ covIQ y = 0 /\ varI y = 2 * varQ y /\ 0 < varI y.
Proof.
  destruct skewed_moments as [A [B D]]. destruct (ortho_some skewed) as [y Hy]; [lra|lra|].
  destruct (ortho_out 1 skewed y (le_n 1) Hy) as [HL [HC [HP HR]]].
  exists y. split; [cbn [orthonormalize_signal map]; rewrite Hy; reflexivity|]. split; [exact HC|]. rewrite A, B, D in HR.
  split; [lra|]. assert (Q : every 1 y y).
  { split; [rewrite Nat.div_1_r; lia|]. intros i _. f_equal. lia. }
  destruct (HP y Q) as [MY PY]. assert (S : varI y + varQ y = INR (length y)).
  { unfold varI, varQ. rewrite MY. unfold sample_power, Rmean in PY.
    assert (N : 0 < INR (length y)) by (rewrite HL; cbn; lra).
    assert (T : Rsum (map Cnorm2 y) = INR (length y)) by (apply (Rmult_eq_reg_r (/ INR (length y))); [rewrite Rinv_r by lra; exact PY|apply Rinv_neq_0_compat; lra]).
    rewrite <- T, <- Rsum_map_add. apply Rsum_ext. intros z _. unfold Cnorm2. cbn [fst snd C0]. ring. }
  rewrite HL in S. cbn in S. lra.
Qed.

(** ** Dispersion *)
Lemma cd_H_two fs D L wl : let a := Cexpi (- (/ 2 * (PI * fs) ^ 2 * (D * wl ^ 2 / (299792458 * 2 * PI)) * L)) in cd_H 2 fs D L wl = [a; a].
Proof.
  cbv zeta. unfold cd_H, linspace. cbn [seq map INR]. repeat (apply (f_equal2 cons)); try reflexivity; f_equal; f_equal; f_equal; f_equal; f_equal.
  - replace (-1 + 0 * ((1 - -1) / (1 + 1 - 1))) with (-1) by field. ring.
  - replace (-1 + 1 * ((1 - -1) / (1 + 1 - 1))) with 1 by field. ring.
Qed.
Lemma cmul_two a l : length l = 2%nat -> cmul_list l [a; a] = map (Cmul a) l.
Proof. destruct l as [|x [|y [|]]]; try discriminate. intros _. unfold cmul_list. cbn [combine map fst snd]. repeat (apply (f_equal2 cons)); try reflexivity; cring. Qed.
Lemma cd_two E fs D L wl : length E = 2%nat ->
  CDcomp E fs 0 L D wl = Ok (map (Cmul (Cexpi (- (/ 2 * (PI * fs) ^ 2 * (D * wl ^ 2 / (299792458 * 2 * PI)) * L)))) E, cd_H 2 fs D L wl).
Proof.
  intros HL. destruct (cd_whole E fs 0 L D wl (or_introl eq_refl)) as [o [E1 E2]]. rewrite HL in *. rewrite E1. apply f_equal. apply f_equal2; [|reflexivity].
  rewrite E2, cd_H_two. cbv zeta. set (a := Cexpi _). change (ifftshift [a; a]) with [a; a].
  rewrite cmul_two by (rewrite dft_length; exact HL). rewrite <- dft_scal. apply idft_dft.
Qed.
(** two equal samples pass the fibre unchanged, the compensation turns their sign *)
Lemma tone_dc : tone 2 0 = [C1; C1].
Proof. unfold tone. cbn [seq map INR]. repeat (apply (f_equal2 cons)); try reflexivity; rewrite <- Cexpi_0; f_equal; unfold Rdiv; ring. Qed.
Lemma fibre_dc fs D L wl : fs <> 0 -> add_dispersion (D1 [C1; C1]) fs D L wl = D1 [C1; C1].
Proof.
  intros Hf. assert (E : map (Cmul C1) (tone 2 0) = [C1; C1]) by (rewrite tone_dc; cbn [map]; repeat (apply (f_equal2 cons)); try reflexivity; cring).
  rewrite <- E. rewrite (disp_tone 2 0 fs D L wl C1) by (try lia; exact Hf). rewrite E. apply f_equal.
  change (IZR (if (2 * 0 <? 2)%nat then Z.of_nat 0 else (Z.of_nat 0 - Z.of_nat 2)%Z)) with 0.
  match goal with |- context [Cexpi ?t] => replace t with 0 by (unfold Rdiv; ring) end. rewrite Cexpi_0. cbn [map]. repeat (apply (f_equal2 cons)); try reflexivity; cring.
Qed.
Lemma fibre_comp : exists H, add_dispersion (D1 [C1; C1]) 1 (4 * 299792458) 1 1 = D1 [C1; C1] /\
  CDcomp [C1; C1] 1 0 1 (4 * 299792458) 1 = Ok ([Copp C1; Copp C1], H).
Proof.
  eexists. split; [apply fibre_dc; lra|]. rewrite cd_two by reflexivity. apply f_equal. apply f_equal2; [|reflexivity].
  pose proof PI_RGT_0. match goal with |- context [Cexpi ?t] => replace t with (- PI) by (field; lra) end.
  cbn [map]. unfold Cexpi. rewrite cos_neg, sin_neg, cos_PI, sin_PI. repeat (apply (f_equal2 cons)); try reflexivity; cring.
Qed.

(** ** Whole arrays *)
Lemma ortho_all E os out : (1 <= os)%nat -> orthonormalize_signal E os = Ok out ->
  length out = length E /\
  forall m x y, nth_error E m = Some x -> nth_error out m = Some (Some y) ->
    length y = length x /\ covIQ y = 0 /\
    (forall t, every os y t -> sample_mean t = C0 /\ sample_power t = 1) /\
    varQ y * (varI x * varQ x) = varI y * (varI x * varQ x - covIQ x * covIQ x).
Proof.
  intros Ho H. assert (E0 : out = map (ortho_row os) E) by (destruct os; [lia|]; injection H as <-; reflexivity). subst out.
  split; [apply map_length|]. intros m x y Hx Hy. rewrite nth_error_map, Hx in Hy. injection Hy as Hy. apply ortho_out; assumption.
Qed.
Lemma ortho_dom x : 0 < varI x -> 0 < varQ x -> exists y, orthonormalize_signal [x] 1 = Ok [Some y].
Proof. intros A B. destruct (ortho_some x A B) as [y Hy]. exists y. cbn [orthonormalize_signal map]. rewrite Hy. reflexivity. Qed.
Lemma rf_delay_all sig delay sr d : sr <> 0 -> 2 * delay = IZR d * sr -> comp_rf_delay sig delay sr = map (roll d) sig.
Proof. intros H1 H2. unfold comp_rf_delay. apply map_ext. intros row. apply rf_delay_ok; assumption. Qed.
Lemma pre_filter_all sig bw c n : (1 <= c)%nat -> 0 < bw -> INR c <= 2 * INR n / bw < INR c + 1 -> Forall (fun r => length r = n) sig ->
  exists out, pre_filter sig bw = Ok out /\ Forall2 (filtered_bins (fun k =>
    let i := if (2 * k <? n)%nat then (k + n / 2)%nat else (k - (n - n / 2))%nat in
    if (c <=? i)%nat && (i + c <? n)%nat then C1 else C0)) sig out.
Proof.
  intros Hc Hb HB HF. unfold pre_filter. destruct (Req_EM_T bw 0); [lra|]. eexists. split; [reflexivity|].
  induction HF as [|r l Hr HF IH]; [constructor|]. cbn [map]. constructor; [|exact IH]. subst n.
  destruct (pre_filter_pass bw r c Hc HB Hb) as [HL HE]. split; [exact HL|]. intros k Hk. rewrite HE by exact Hk.
  rewrite centre_val by exact Hk. cbv zeta.
  pose proof (Nat.div_mod (length r) 2 ltac:(lia)). pose proof (Nat.mod_upper_bound (length r) 2 ltac:(lia)).
  set (h := (length r / 2)%nat) in *. set (md := (length r mod 2)%nat) in *. clearbody h md.
  destruct (2 * k <? length r)%nat eqn:B; [reflexivity|]. destruct (k + h <? length r)%nat eqn:B2; [lia|].
  replace (k + h - length r)%nat with (k - (length r - h))%nat by lia. reflexivity.
Qed.
Lemma pre_filter_empty sig bw : 0 < bw <= 2 -> pre_filter sig bw = Ok (map (fun r => repeat C0 (length r)) sig).
Proof. intros H. unfold pre_filter. destruct (Req_EM_T bw 0); [lra|]. apply f_equal. apply map_ext. intros r. apply pre_filter_none. exact H. Qed.
Lemma pre_filter_huge sig bw n : Forall (fun r => length r = n) sig -> 2 * INR n < bw -> pre_filter sig bw = Ok (map (fun r => repeat C0 (length r)) sig).
Proof.
  intros HF H. unfold pre_filter. pose proof (pos_INR n). destruct (Req_EM_T bw 0); [lra|]. apply f_equal. apply map_ext_in. intros r Hr.
  rewrite Forall_forall in HF. apply pre_filter_wide. rewrite (HF r Hr). exact H.
Qed.

(** ** Raised cosine *)
Lemma rcos_function beta T : 0 < beta <= 1 -> 0 < T -> exists H, nyquist H T T /\
  (forall f, 0 <= H f <= T) /\ (forall f, (1 + beta) / (2 * T) <= Rabs f -> H f = 0) /\ (forall f, Rabs f <= (1 - beta) / (2 * T) -> H f = T) /\
  forall fl, rcos_freq fl beta T = Ok (map H fl).
Proof.
  intros Hb HT. exists (rcos_at beta T). split; [apply rc_nyquist; assumption|]. split; [intros f; apply rc_range; assumption|].
  split; [intros f Hf; apply rc_off; assumption|]. split; [intros f Hf; apply rc_flat; assumption|].
  intros fl. unfold rcos_freq. destruct (Req_EM_T T 0); [lra|]. destruct (Req_EM_T beta 0); [lra|]. reflexivity.
Qed.
Lemma fb_unit sig fs fb beta : fb * fb = 1 -> 0 < fb ->
  rrcos_pulseshaping_sig sig fs fb beta None = rrcos_pulseshaping_sig sig fs fb beta (Some (1 / fb)).
Proof. intros H P. unfold rrcos_pulseshaping_sig. replace (1 / fb) with fb; [reflexivity|]. replace fb with 1 by nra. field. Qed.
Lemma rolloff_zero f T : T <> 0 -> rcos_freq f 0 T = Err ZeroDivisionError /\ rrcos_freq f 0 T = Err ZeroDivisionError.
Proof.
  intros H. unfold rrcos_freq. assert (E : rcos_freq f 0 T = Err ZeroDivisionError).
  { unfold rcos_freq. destruct (Req_EM_T T 0); [contradiction|]. destruct (Req_EM_T 0 0); [reflexivity|lra]. }
  rewrite E. split; reflexivity.
Qed.
Lemma rcos_points : rcos_freq [0; 1 / 4; 1 / 2; -1 / 2; 2] (1 / 2) 1 = Ok [1; 1; 1 / 2; 1 / 2; 0].
Proof.
  unfold rcos_freq. destruct (Req_EM_T 1 0); [lra|]. destruct (Req_EM_T (1 / 2) 0); [lra|]. apply f_equal. cbn [map].
  assert (E : rcos_at (1 / 2) 1 (1 / 2) = 1 / 2).
  { rewrite rc_form; rewrite ?(Rabs_right (1 / 2)) by lra; try lra. replace (PI * 1 / (1 / 2) * (1 / 2 - (1 - 1 / 2) / (2 * 1))) with (PI / 2) by field.
    rewrite cos_PI2. lra. }
  assert (E' : rcos_at (1 / 2) 1 (-1 / 2) = 1 / 2).
  { rewrite <- E at 2. replace (-1 / 2) with (- (1 / 2)) by field. apply rc_even. }
  repeat (apply (f_equal2 cons)); try assumption; try reflexivity.
  - apply rc_flat; rewrite ?Rabs_R0; lra.
  - apply rc_flat; rewrite ?Rabs_right; lra.
  - apply rc_off; rewrite ?Rabs_right; lra.
Qed.
Lemma shaping_filter sig fs T beta : 0 < beta <= 1 -> 0 < T -> sig <> [] ->
  exists out H, rrcos_pulseshaping sig fs T beta None = Ok out /\ filtered H fs sig out /\
    nyquist (fun f => H f ^ 2) T 1 /\ H 0 = 1 /\ (forall f, 0 <= H f <= 1) /\ forall f, (1 + beta) / (2 * T) <= Rabs f -> H f = 0.
Proof.
  intros Hb HT Hs. destruct (shaping_freq_ok sig fs T beta Hb HT Hs) as [out [E F]].
  exists out, (fun f => sqrt (rcos_at beta T f / T)).
  assert (R : forall f, 0 <= rcos_at beta T f / T <= 1).
  { intros f. destruct (rc_range beta T HT f) as [A B]. assert (0 < / T) by (apply Rinv_0_lt_compat; exact HT).
    split; [unfold Rdiv; nra|]. apply (Rmult_le_reg_r T); [exact HT|]. unfold Rdiv. rewrite Rmult_assoc, Rinv_l by lra. lra. }
  assert (S : forall f, sqrt (rcos_at beta T f / T) ^ 2 = rcos_at beta T f / T) by (intros f; apply pow2_sqrt; apply R).
  split; [exact E|]. split; [exact F|]. split; [|split; [|split]].
  - intros f. destruct (rc_nyquist beta T Hb HT f) as [k0 [A B]]. exists k0. split.
    + rewrite !S. unfold Rdiv. rewrite <- !Rmult_plus_distr_r. unfold Rdiv in A. rewrite A. field. lra.
    + intros k Hk. rewrite S. rewrite B by exact Hk. unfold Rdiv. ring.
  - rewrite rc_zero by assumption. unfold Rdiv. rewrite Rinv_r by lra. apply sqrt_1.
  - intros f. split; [apply sqrt_pos|]. replace 1 with (sqrt 1) by apply sqrt_1. apply sqrt_le_1_alt. apply R.
  - intros f Hf. rewrite rc_off by assumption. unfold Rdiv. rewrite Rmult_0_l. apply sqrt_0.
Qed.
Lemma no_isi_two : exists y1 y2, rrcos_pulseshaping [Ci; C0; C1; C0] 2 1 (1 / 2) None = Ok y1 /\
  rrcos_pulseshaping y1 2 1 (1 / 2) None = Ok y2 /\ nth 0 y2 C0 = Cscal (/ 2) Ci /\ nth 2 y2 C0 = Cscal (/ 2) C1.
Proof.
  destruct (shaping_freq_ok [Ci; C0; C1; C0] 2 1 (1 / 2)) as [y1 [E1 [L1 _]]]; [lra|lra|discriminate|].
  destruct (shaping_freq_ok y1 2 1 (1 / 2)) as [y2 [E2 [L2 _]]]; [lra|lra|intros ->; discriminate|].
  exists y1, y2. split; [exact E1|]. split; [exact E2|].
  assert (T : [nth 0 y2 C0; nth 2 y2 C0] = map (Cscal (/ INR 2)) [Ci; C1]).
  { apply (no_isi (1 / 2) 1 2 2 2 ltac:(lra) ltac:(lra) ltac:(cbn; lra) ltac:(lia) ltac:(lia) [Ci; C1] [Ci; C0; C1; C0] y1 y2).
    - reflexivity.
    - split; [reflexivity|]. intros i Hi. cbn [length] in Hi. destruct i as [|[|[|[|]]]]; try lia; reflexivity.
    - exact E1.
    - exact E2.
    - split; [rewrite L2, L1; reflexivity|]. intros i Hi. cbn [length] in Hi. destruct i as [|[|]]; try lia; reflexivity. }
  cbn [map] in T. injection T as T1 T2. replace (INR 2) with 2 in T1, T2 by (cbn; lra). split; assumption.
Qed.

(** ** Filters as theorems state them *)
Lemma gauss_one_all row fs cutoff : Nat.Even (length row) -> cutoff <> 0 -> exists out H,
  filter_gauss (D1 row) fs cutoff = D1 out /\ filtered H fs row out /\ H 0 = 1 /\ H cutoff = 1 / 16 /\ forall f, 0 < H f <= 1.
Proof.
  intros He Hc. destruct (gauss_one row fs cutoff He) as [out [E F]]. exists out, (gauss_gain cutoff).
  split; [exact E|]. split; [exact F|]. split; [apply gauss_at_0|]. split; [apply gauss_at_cutoff; exact Hc|]. intros f. apply gauss_le_1. exact Hc.
Qed.
Lemma gauss_modes rows fs cutoff : Nat.Even (length rows) -> cutoff <> 0 ->
  exists out, filter_gauss (D2 rows) fs cutoff = D2 out /\ Forall2 (fun x y => filter_gauss (D1 x) fs cutoff = D1 y) rows out.
Proof.
  intros He _. eexists. split; [apply gauss2|]. rewrite shift_twice_even by (rewrite map_length; exact He). clear He.
  induction rows as [|r l IH]; [constructor|]. cbn [map]. constructor; [apply gauss1|exact IH].
Qed.
Lemma exp_one_all row fs cutoff : Nat.Even (length row) -> row <> [] -> 0 < cutoff -> exists out H,
  filter_exp (D1 row) fs cutoff = Ok (D1 out) /\ filtered H fs row out /\ H 0 = 1 /\ H cutoff = 1 / 2 /\ forall f, 0 < H f <= 1.
Proof.
  intros He Hr Hc. destruct (exp_one row fs cutoff He Hr) as [out [E F]]. exists out, (exp_gain cutoff).
  split; [exact E|]. split; [exact F|]. split; [apply exp_gain_0|]. split; [apply exp_at_cutoff; exact Hc|]. intros f.
  split; [apply exp_pos|apply exp_gain_le].
Qed.
Lemma exp_modes rows n fs cutoff : Nat.Even (length rows) -> Nat.Even n -> (0 < n)%nat -> rows <> [] -> Forall (fun r => length r = n) rows -> 0 < cutoff ->
  exists out, filter_exp (D2 rows) fs cutoff = Ok (D2 out) /\ Forall2 (fun x y => filter_exp (D1 x) fs cutoff = Ok (D1 y)) rows out.
Proof.
  intros Hr He Hn Hne HF _. pose proof (exp_max fs cutoff n He Hn) as HM. eexists. split; [apply (exp2 rows fs cutoff 1 n HF Hne HM)|].
  rewrite shift4 by (rewrite map_length; exact Hr). clear Hr Hne.
  induction HF as [|r l Hr HF IH]; [constructor|]. cbn [map]. constructor; [|exact IH].
  rewrite (exp1 r fs cutoff 1); rewrite Hr; [reflexivity|exact HM].
Qed.
Lemma cutoff_tones fs N k : Nat.Even N -> (0 < 2 * k < N)%nat -> 0 < fs -> exists g e,
  filter_gauss (D1 (tone N k)) fs (INR k * (fs / INR N)) = D1 g /\ sample_power g = / 256 /\
  filter_exp (D1 (tone N k)) fs (INR k * (fs / INR N)) = Ok (D1 e) /\ sample_power e = / 4 /\ sample_power (tone N k) = 1.
Proof.
  intros He Hk Hf. eexists. eexists. split; [apply gauss_tone; assumption|]. split; [rewrite scal_power, tone_power by lia; lra|].
  split; [apply exp_tone; assumption|]. split; [rewrite scal_power, tone_power by lia; lra|]. apply tone_power. lia.
Qed.
Lemma gauss_odd_dc fs cutoff : fs <> 0 -> cutoff <> 0 -> exists out, filter_gauss (D1 [C1]) fs cutoff = D1 [out] /\ Cnorm2 out < 1.
Proof.
  intros Hf Hc. eexists. split; [apply gauss_odd|]. 
  assert (G : 0 < gauss_gain cutoff (fs / 2) < 1).
  { unfold gauss_gain. cbv zeta. split; [apply exp_pos|]. rewrite <- exp_0. apply exp_increasing. set (w := cutoff / _).
    assert (w <> 0).
    { unfold w, Rdiv. apply Rmult_integral_contrapositive_currified; [exact Hc|]. apply Rinv_neq_0_compat.
      pose proof ln2_gt0. assert (0 < sqrt (2 * ln 2)) by (apply sqrt_lt_R0; lra). lra. }
    assert (0 < / (2 * w ^ 2)) by (apply Rinv_0_lt_compat; nra).
    assert (0 < (fs / 2) ^ 2) by nra. unfold Rdiv at 1. nra. }
  unfold Cnorm2, Cscal, C1. cbn [fst snd]. nra.
Qed.
