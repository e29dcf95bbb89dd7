(** Properties C58, C59, C61-C65, C67, C71, C75, C83-C85: impairments and signal helpers. *)
From Coq Require Import List ZArith Bool Reals Arith Lia Lra.
From Verif Require Import Common.Py Common.Cplx Common.SumX Common.Angle Common.Dft Model.Helpers Model.Phase Model.Impair
  Spec.Seq Spec.Equal Spec.ImpairSpec Spec.PhaseSpec Proofs.ImpairP Proofs.ImpairQ Proofs.ImpairR Proofs.ImpairS Proofs.ImpairT.
Import ListNotations.
Local Open Scope R_scope.

(** ** C58 *)
Theorem C58_rotation : forall E theta N, shape E 2 N -> exists x y x' y', E = [x; y] /\ rotate_field E theta = Ok [x'; y'] /\ shape [x'; y'] 2 N /\
  (forall k a b, nth_error x k = Some a -> nth_error y k = Some b -> exists a' b',
     nth_error x' k = Some a' /\ nth_error y' k = Some b' /\
     a' = (Cscal (cos theta) a - Cscal (sin theta) b)%C /\ b' = (Cscal (sin theta) a + Cscal (cos theta) b)%C /\
     Cnorm2 a' + Cnorm2 b' = Cnorm2 a + Cnorm2 b) /\
  rotate_field [x'; y'] (- theta) = Ok E.
Proof. exact rotate_all. Qed.
Print Assumptions C58_rotation.
Theorem C58_modes : forall E theta, length E <> 2%nat -> rotate_field E theta = Err ValueError.
Proof. exact rotate_modes. Qed.
Print Assumptions C58_modes.
Example C58_case : rotate_field [[(3, 1)]; [(0, 2)]] (PI / 2) = Ok [[(0, -2)]; [(3, 1)]].
Proof.
  cbn [rotate_field]. apply f_equal. unfold zipc. cbn [combine map fst snd]. rewrite cos_PI2, sin_PI2.
  apply (f_equal2 cons); [apply (f_equal2 cons); [|reflexivity]|apply (f_equal2 cons); [apply (f_equal2 cons); [|reflexivity]|reflexivity]];
    apply C_eq; cbn; ring.
Qed.

(** ** C59 *)
Theorem C59_delay : forall sig delay, length delay = length sig -> exists out, add_modal_delay sig delay = Ok out /\
  length out = length sig /\
  (forall m x d, nth_error sig m = Some x -> nth_error delay m = Some d -> exists y, nth_error out m = Some y /\ delayed d x y) /\
  add_modal_delay out (map Z.opp delay) = Ok sig.
Proof. exact modal_delay_ok. Qed.
Print Assumptions C59_delay.
Theorem C59_modes : forall sig delay, length delay <> length sig -> add_modal_delay sig delay = Err AssertionError.
Proof. exact modal_delay_bad. Qed.
Print Assumptions C59_modes.
Example C59_case : add_modal_delay [[C0; C1; Ci]; [C0; C1; Ci]] [1; -4]%Z = Ok [[Ci; C0; C1]; [C1; Ci; C0]].
Proof. reflexivity. Qed.

(** ** C61 *)
Theorem C61_lossless : forall E theta t_dgd fs N, shape E 2 N -> exists E', apply_PMD_to_field E theta t_dgd fs = Ok E' /\ shape E' 2 N /\
  field_energy E' = field_energy E /\ apply_PMD_to_field E' theta (- t_dgd) fs = Ok E.
Proof. exact PMD_lossless. Qed.
Print Assumptions C61_lossless.
Theorem C61_additive : forall E theta s t fs N, shape E 2 N ->
  (let! E' := apply_PMD_to_field E theta s fs in apply_PMD_to_field E' theta t fs) = apply_PMD_to_field E theta (s + t) fs.
Proof. exact PMD_add. Qed.
Print Assumptions C61_additive.
(** along the axes, a differential delay of 2d samples delays the modes by d and -d samples *)
Theorem C61_delay : forall x y t_dgd fs d, length x = length y -> (1 <= length x)%nat -> t_dgd * fs = 2 * IZR d ->
  exists c x' y', apply_PMD_to_field [x; y] 0 t_dgd fs = Ok [map (Cmul c) x'; map (Cmul (Cconj c)) y'] /\
    Cnorm2 c = 1 /\ (Nat.Even (length x) -> c = C1) /\ delayed d x x' /\ delayed (- d) y y'.
Proof. exact PMD_delay. Qed.
Print Assumptions C61_delay.
Theorem C61_modes : forall E theta t_dgd fs, length E <> 2%nat -> apply_PMD_to_field E theta t_dgd fs = Err ValueError.
Proof. exact PMD_modes. Qed.
Print Assumptions C61_modes.
(** two samples of delay between the modes *)
Example C61_case : apply_PMD_to_field [[C1; C0; C0; Ci]; [C1; C0; C0; Ci]] 0 (2 / 10) 10 =
  Ok [[Ci; C1; C0; C0]; [C0; C0; Ci; C1]].
Proof.
  destruct (C61_delay [C1; C0; C0; Ci] [C1; C0; C0; Ci] (2 / 10) 10 1 eq_refl) as (c & x' & y' & E & _ & Hc & [L1 D1] & [L2 D2]);
    [cbn; lia|lra|].
  rewrite E, (Hc ltac:(exists 2%nat; reflexivity)).
  assert (X : x' = [Ci; C1; C0; C0]).
  { destruct x' as [|a [|b [|c' [|d [|e x']]]]]; try discriminate.
    pose proof (D1 0%nat ltac:(cbn; lia)) as H0. pose proof (D1 1%nat ltac:(cbn; lia)) as H1.
    pose proof (D1 2%nat ltac:(cbn; lia)) as H2. pose proof (D1 3%nat ltac:(cbn; lia)) as H3.
    injection H0 as ->. injection H1 as ->. injection H2 as ->. injection H3 as ->. reflexivity. }
  assert (Y : y' = [C0; C0; Ci; C1]).
  { destruct y' as [|a [|b [|c' [|d [|e y']]]]]; try discriminate.
    pose proof (D2 0%nat ltac:(cbn; lia)) as H0. pose proof (D2 1%nat ltac:(cbn; lia)) as H1.
    pose proof (D2 2%nat ltac:(cbn; lia)) as H2. pose proof (D2 3%nat ltac:(cbn; lia)) as H3.
    injection H0 as ->. injection H1 as ->. injection H2 as ->. injection H3 as ->. reflexivity. }
  rewrite X, Y. cbn [map]. apply f_equal.
  repeat (apply (f_equal2 cons); [repeat (apply (f_equal2 cons); [cring|]); reflexivity|]). reflexivity.
Qed.

(** ** C62 *)
(** one mode: all-pass, inverted by -D, the identity for D L = 0 *)
Theorem C62_single_mode_partial : forall row fs D L wl0, exists out, add_dispersion (D1 row) fs D L wl0 = D1 out /\ length out = length row /\
  field_energy [out] = field_energy [row] /\ add_dispersion (D1 out) fs (- D) L wl0 = D1 row /\
  (D * L = 0 -> out = row).
Proof. exact disp_one. Qed.
Print Assumptions C62_single_mode_partial.
Theorem C62_one_row_partial : forall row fs D L wl0, exists out,
  add_dispersion (D2 [row]) fs D L wl0 = D2 [out] /\ add_dispersion (D1 row) fs D L wl0 = D1 out.
Proof. exact disp_single. Qed.
Print Assumptions C62_one_row_partial.
(** the frequency f of a tone is delayed by the phase D wl0^2 L (2 pi f)^2 / (4 pi c) *)
Theorem C62_tone_partial : forall N k fs D L wl0 a, (k < N)%nat -> fs <> 0 ->
  let f := IZR (if (2 * k <? N)%nat then Z.of_nat k else (Z.of_nat k - Z.of_nat N)%Z) * fs / INR N in
  add_dispersion (D1 (map (Cmul a) (tone N k))) fs D L wl0 =
  D1 (map (Cmul (Cexpi (- (D * wl0 ^ 2 * L * (2 * PI * f) ^ 2 / (4 * PI * 299792458))))) (map (Cmul a) (tone N k))).
Proof. exact disp_tone. Qed.
Print Assumptions C62_tone_partial.
(** several modes: mode m is dispersed like a single one but ends up at position m + n//2 (mod n) *)
Theorem C62_modes_partial : forall rows fs D L wl0, exists out, add_dispersion (D2 rows) fs D L wl0 = D2 out /\ length out = length rows /\
  forall m row, nth_error rows m = Some row -> exists row',
    add_dispersion (D1 row) fs D L wl0 = D1 row' /\ nth_error out ((m + length rows / 2) mod length rows) = Some row'.
Proof. exact disp_modes. Qed.
Print Assumptions C62_modes_partial.
Theorem C62_even_partial : forall rows fs D L wl0, Nat.Even (length rows) -> exists out, add_dispersion (D2 rows) fs D L wl0 = D2 out /\
  add_dispersion (D2 out) fs (- D) L wl0 = D2 rows.
Proof. exact disp_even_back. Qed.
Print Assumptions C62_even_partial.
(** zero dispersion exchanges two polarisations; with three modes -D does not restore the order *)
Theorem C62_modes_refuted :
  (forall x y fs L wl0, add_dispersion (D2 [x; y]) fs 0 L wl0 = D2 [y; x]) /\
  (forall x y z fs D L wl0, exists out, add_dispersion (D2 [x; y; z]) fs D L wl0 = D2 out /\
     add_dispersion (D2 out) fs (- D) L wl0 = D2 [y; z; x]).
Proof. split; [exact disp_swap|exact disp_three]. Qed.
Print Assumptions C62_modes_refuted.
Example C62_case : add_dispersion (D2 [[C1; C0]; [Ci; Ci]]) 10 0 7 3 = D2 [[Ci; Ci]; [C1; C0]] /\
  [[C1; C0]; [Ci; Ci]] <> [[Ci; Ci]; [C1; C0]].
Proof. split; [apply C62_modes_refuted|]. intros H. injection H. intros. lra. Qed.

(** ** C63 *)
(** quantize_signal without rescaling rounds full-scale samples up to the next of the 2^b levels *)
Theorem C63_rounds_up_partial : forall b sig, (1 <= b)%nat -> Forall (Forall (within 1)) sig ->
  let step := 2 / (INR (2 ^ b) - 1) in
  exists out, quantize_signal sig b false false = Ok (map (map Some) out, map (map Some) sig) /\
    Forall2 (Forall2 (fun x y => (0 <= fst y - fst x <= step /\ 0 <= snd y - snd x <= step) /\ on_levels (-1) step (2 ^ b) y)) sig out.
Proof. exact quant_old. Qed.
Print Assumptions C63_rounds_up_partial.
(** quantize_signal_New rounds to the nearest of 2^b levels if all modes of the signal object have the
    same peak *)
Theorem C63_nearest_partial : forall b sig M, 0 < M -> sig <> [] -> (forall row, In row sig -> peak M row) ->
  exists out, quantize_signal_New true sig b true true = Ok out /\
    Forall2 (Forall2 (fun x y => near (M / INR (2 ^ b)) x y /\ on_levels (M * (-1 + / INR (2 ^ b))) (2 * M / INR (2 ^ b)) (2 ^ b) y)) sig out.
Proof. exact quant_new_common. Qed.
Print Assumptions C63_nearest_partial.
(** in general every mode is rescaled to the largest peak of all modes *)
Theorem C63_rescaled_partial : forall b sig peaks M, 0 < M -> peak M (concat sig) -> Forall2 (fun row m => 0 < m /\ peak m row) sig peaks ->
  exists out, quantize_signal_New true sig b true true = Ok out /\ length out = length sig /\
    forall k row m, nth_error sig k = Some row -> nth_error peaks k = Some m -> exists row', nth_error out k = Some row' /\
      Forall2 (fun x y => near (M / INR (2 ^ b)) (Cscal (M / m) x) y /\
                          on_levels (M * (-1 + / INR (2 ^ b))) (2 * M / INR (2 ^ b)) (2 ^ b) y) row row'.
Proof. exact quant_new. Qed.
Print Assumptions C63_rescaled_partial.
(** quantize_signal has errors above half a step, for every number of bits *)
Theorem C63_half_step_refuted : forall b, (1 <= b)%nat -> exists x y, within 1 x /\
  quantize_signal [[x]] b false false = Ok ([[Some y]], [[Some x]]) /\ ~ near ((2 / (INR (2 ^ b) - 1)) / 2) x y.
Proof. exact quant_half. Qed.
Print Assumptions C63_half_step_refuted.
(** with rescaling (the default) it modifies its argument *)
Theorem C63_argument_refuted : forall b re_normalize, exists out, quantize_signal [[(2, 0)]] b true re_normalize = Ok (out, [[Some (1, 0)]]).
Proof. exact quant_old_mutates. Qed.
Print Assumptions C63_argument_refuted.
(** quantize_signal_New: modes of different peaks; ndarrays *)
Theorem C63_peaks_refuted : forall b, (2 <= b)%nat -> exists y1 y2,
  quantize_signal_New true [[(1, 0)]; [(1 / 4, 0)]] b true true = Ok [[y1]; [y2]] /\ ~ near (1 / INR (2 ^ b)) (1 / 4, 0) y2.
Proof. exact quant_new_unequal. Qed.
Print Assumptions C63_peaks_refuted.
Theorem C63_ndarray_refuted : forall b sig rescale_in rescale_out, exists e, quantize_signal_New false sig b rescale_in rescale_out = Err e.
Proof. exact quant_new_ndarray. Qed.
Print Assumptions C63_ndarray_refuted.
(** one bit: -0.9 becomes 1 *)
Example C63_case : exists y, quantize_signal [[(- (9 / 10), 1)]] 1 false false = Ok ([[Some y]], [[Some (- (9 / 10), 1)]]) /\ fst y = 1.
Proof.
  destruct (C63_rounds_up_partial 1 [[(- (9 / 10), 1)]] (le_n 1)) as (out & E & F).
  { constructor; [|constructor]. constructor; [|constructor]. split; cbn [fst snd]; unfold Rabs; destruct (Rcase_abs _); lra. }
  inversion F as [|r o ro os Fr Fo]; subst. inversion Fo; subst. inversion Fr as [|u y us ys Fu Fv]; subst. inversion Fv; subst.
  exists y. split; [exact E|]. destruct Fu as [[[B1 B2] _] [(k & Hk & K) _]]. cbn [fst] in B1, B2. cbn in Hk.
  destruct k as [|[|k]]; [| |lia]; rewrite K in *; cbn in *; lra.
Qed.

(** ** C64 *)
Theorem C64_clipper : forall sig level, 0 <= level ->
  Forall2 (Forall2 (fun x y => y = (limit level (fst x), limit level (snd x)) /\ within level y /\ (within level x -> y = x))) sig (clipper sig level) /\
  clipper (clipper sig level) level = clipper sig level.
Proof. exact clipper_ok. Qed.
Print Assumptions C64_clipper.
Example C64_case : clipper [[(3, -5); (1, -1); (0, 2)]] 2 = [[(2, -2); (1, -1); (0, 2)]].
Proof.
  rewrite clipper_limit by lra. cbn [map fst snd]. unfold limit, Rmin, Rmax.
  repeat (apply (f_equal2 cons); [|reflexivity] || apply (f_equal2 cons)); try reflexivity; cases_if; try lra; f_equal; lra.
Qed.

(** ** C65 *)
Theorem C65_normalised : forall E, Forall (fun x => ~ constant x) E -> exists F, normalise_and_center E = map (map Some) F /\
  Forall2 (fun x y => (exists a, shifted_scaled (sample_mean x) a x y) /\ sample_mean y = C0 /\ sample_power y = 1) E F /\
  normalise_and_center F = map (map Some) F.
Proof. exact nc_all. Qed.
Print Assumptions C65_normalised.
(** a constant mode becomes nan *)
Theorem C65_constant : forall x, constant x -> normalise_and_center [x] = [map (fun _ => None) x].
Proof. intros x H. unfold normalise_and_center. cbn [map]. rewrite nc_row_const by exact H. reflexivity. Qed.
Print Assumptions C65_constant.
Example C65_case : normalise_and_center [[(3, 1); (-1, 1)]] = [[Some C1; Some (- C1)%C]].
Proof.
  destruct (C65_normalised [[(3, 1); (-1, 1)]]) as (F & E & H & _).
  { constructor; [|constructor]. intros H. assert (X : ((3, 1) : C) = (-1, 1)) by (apply H; [left; reflexivity|right; left; reflexivity]). injection X. lra. }
  rewrite E. inversion H as [|x y xs ys ((a & Ha & Hy) & _ & Hp) Hr]; subst. inversion Hr; subst.
  assert (M : sample_mean [(3, 1); (-1, 1)] = (1, 1)) by (unfold sample_mean; apply C_eq; cbn; field).
  rewrite M in *. cbn [map] in *. unfold sample_power in Hp. cbn in Hp.
  replace (1 + 1) with 2 in Hp by ring. unfold Cnorm2, Cscal, Csub, Cadd, Copp in Hp. cbn [fst snd] in Hp. assert (Ha2 : a * a = / 4) by lra. assert (a = / 2) by nra. subst a.
  repeat (apply (f_equal2 cons); [|reflexivity] || apply (f_equal2 cons)); apply f_equal; apply C_eq; cbn; field.
Qed.

(** ** C67 *)
(** bias 1 (the zero-power point), no imbalance, no chirp, outer bias 1/2 (quadrature) *)
Theorem C67_modulator : forall sig, modulator_response sig (1, 0) (1, 0) (0, 0) (1 / 2) 1 =
  map (map (fun z => (sin (PI / 2 * fst z) / 2, sin (PI / 2 * snd z) / 2))) sig.
Proof. exact modulator_all. Qed.
Print Assumptions C67_modulator.
(** the cascade is linear for vpi = 1/pi *)
Theorem C67_cascade_partial : forall z, within 1 z -> exists a b, comp_mod_sin_sample (/ PI, / PI) z = (Some a, Some b) /\
  modulator_sample (1, 0) (1, 0) (0, 0) (1 / 2) 1 (a, b) = Cscal (/ 2) z.
Proof. exact cascade_inv_pi. Qed.
Print Assumptions C67_cascade_partial.
(** but not for the default 1.14 nor for the modulator's vpi, which is 1 *)
Theorem C67_cascade_refuted :
  (forall v, 2 / PI < v < 4 / PI -> ~ exists c, forall x, -1 <= x <= 1 -> exists a b,
     comp_mod_sin_sample (v, v) (x, 0) = (Some a, Some b) /\ fst (modulator_sample (1, 0) (1, 0) (0, 0) (1 / 2) 1 (a, b)) = c * x) /\
  2 / PI < 1 < 4 / PI /\ 2 / PI < 114 / 100 < 4 / PI.
Proof. exact (conj cascade_not_linear (conj vpi_one default_vpi)). Qed.
Print Assumptions C67_cascade_refuted.
Example C67_case : modulator_response [[(1, -1); (0, 1 / 3)]] (1, 0) (1, 0) (0, 0) (1 / 2) 1 = [[(1 / 2, - (1 / 2)); (0, 1 / 4)]].
Proof.
  rewrite C67_modulator. cbn [map fst snd].
  replace (PI / 2 * 1) with (PI / 2) by ring. replace (PI / 2 * -1) with (- (PI / 2)) by ring.
  replace (PI / 2 * 0) with 0 by ring. replace (PI / 2 * (1 / 3)) with (PI / 6) by field.
  rewrite sin_neg, sin_PI2, sin_0, sin_PI6.
  repeat (apply (f_equal2 cons); [|reflexivity] || apply (f_equal2 cons)); f_equal; field.
Qed.

(** ** C71 *)
Theorem C71_lin : forall x, 0 < x -> exists y, lin2dB x = Some y /\ dB2lin y = x.
Proof. exact dB_of_lin. Qed.
Print Assumptions C71_lin.
Theorem C71_dB : forall y, 0 < dB2lin y /\ lin2dB (dB2lin y) = Some y.
Proof. exact lin_of_dB. Qed.
Print Assumptions C71_dB.
Example C71_case : lin2dB 100 = Some 20 /\ dB2lin 20 = 100.
Proof.
  assert (E : dB2lin 20 = 100).
  { unfold dB2lin. replace (20 / 10) with (INR 2) by (cbn; field). rewrite Rpower_pow by lra. cbn. ring. }
  split; [|exact E]. rewrite <- E. apply C71_dB.
Qed.

(** ** C75 *)
(** without dispersion every combination of impairments returns a signal of the same shape *)
Theorem C75_returns_partial : forall s dr snr freq_off lwdth dgd theta modal_delay roll_frame_sync p n,
  shape (x_rows s) p n -> shape (d_phase dr) p n -> shape (d_nr dr) p n -> shape (d_ni dr) p n ->
  (roll_frame_sync = true -> x_frames s <> None) -> (forall d, modal_delay = Some d -> length d = p) -> (dgd <> None -> p = 2%nat) ->
  exists out, simulate_transmission s dr snr freq_off lwdth dgd theta modal_delay None roll_frame_sync = Ok out /\ shape out p n.
Proof. exact sim_ok. Qed.
Print Assumptions C75_returns_partial.
(** all impairments, in this order *)
Theorem C75_order_partial : forall s dr snr freq_off lwdth dgd theta delay out,
  simulate_transmission s dr (Some snr) (Some freq_off) (Some lwdth) (Some dgd) theta (Some delay) None false = Ok out <->
  exists r1, apply_phase_noise (x_rows s) (d_phase dr) lwdth (x_fs s) = Ok r1 /\ exists r2,
    add_modal_delay (change_snr (add_carrier_offset r1 freq_off (x_fs s)) snr (x_fb s) (x_fs s) (d_nr dr) (d_ni dr)) delay = Ok r2 /\
    apply_PMD_to_field r2 theta dgd (x_fs s) = Ok out.
Proof. exact sim_order. Qed.
Print Assumptions C75_order_partial.
(** a requested dispersion always ends in an exception *)
Theorem C75_dispersion_refuted :
  (forall s dr snr freq_off lwdth dgd theta modal_delay D roll_frame_sync, exists e,
     simulate_transmission s dr snr freq_off lwdth dgd theta modal_delay (Some D) roll_frame_sync = Err e) /\
  (forall s dr D theta, simulate_transmission s dr None None None None theta None (Some D) false = Err NameError).
Proof. exact (conj sim_dispersion sim_dispersion_plain). Qed.
Print Assumptions C75_dispersion_refuted.
Example C75_case : exists out, simulate_transmission (mk_tx [[C1; C0]; [Ci; Ci]] 2 1 (Some (1, 1)%nat))
    (mk_draws [[1; 2]; [3; 4]] [[1; -1]; [0; 2]] [[1; 1]; [0; 1]]) (Some 20) (Some 3) (Some 1) (Some 7) 1 (Some [1; -1]%Z) None true = Ok out /\ shape out 2 2.
Proof.
  apply C75_returns_partial; try (split; [reflexivity|repeat constructor]); try discriminate; try reflexivity.
  intros d H. injection H as <-. reflexivity.
Qed.

(** ** C83 *)
Theorem C83_rescale_partial : forall rows peaks swing, 0 <= swing -> Forall2 (fun row m => 0 < m /\ peak m row) rows peaks ->
  exists out, rescale_signal (D2 rows) [swing] = Ok (map (map Some) out) /\
    Forall2 (fun row y => peak swing y /\ exists a, 0 <= a /\ y = map (Cscal a) row) rows out.
Proof. exact rescale_ok. Qed.
Print Assumptions C83_rescale_partial.
Theorem C83_amplifier : forall sig v m, 0 <= v -> 0 < m -> peak m (concat sig) ->
  exists out, ideal_amplifier_response sig v = Ok (map (map Some) out) /\ peak v (concat out) /\
    exists a, 0 <= a /\ out = map (map (Cscal a)) sig.
Proof. exact amplifier_ok. Qed.
Print Assumptions C83_amplifier.
Theorem C83_mid_point : forall E mid, E <> [] -> exists out c, set_mid_point E mid = Ok out /\ out = map (fun z => (z + c)%C) E /\
  exists a b a' b', spans a b (map fst out) /\ (a + b) / 2 = fst mid /\ spans a' b' (map snd out) /\ (a' + b') / 2 = snd mid.
Proof. exact mid_point_ok. Qed.
Print Assumptions C83_mid_point.
(** rescale_signal fails on every one-dimensional array *)
Theorem C83_one_dimension_refuted : forall row swing, rescale_signal (D1 row) swing = Err IndexError.
Proof. reflexivity. Qed.
Print Assumptions C83_one_dimension_refuted.
Example C83_case : exists out, rescale_signal (D2 [[(1, 0)]; [(1 / 4, 0)]]) [3] = Ok (map (map Some) out) /\
  Forall2 (fun row y => peak 3 y /\ exists a, 0 <= a /\ y = map (Cscal a) row) [[(1, 0)]; [(1 / 4, 0)]] out.
Proof.
  apply (C83_rescale_partial _ [1; 1 / 4]); [lra|].
  constructor; [split; [lra|apply peak_one; lra]|]. constructor; [split; [lra|apply peak_one; lra]|constructor].
Qed.

(** ** C84 *)
Theorem C84_pilots_partial : forall idx rows, (forall row, In row rows -> exists pil, mask_get idx row = Ok pil /\ ~ constant pil) ->
  exists out, normalise_and_center_pil (D2 rows) idx = Ok (map (map Some) out) /\
    Forall2 (fun x y => (exists m a, shifted_scaled m a x y) /\
                        exists pil, mask_get idx y = Ok pil /\ sample_mean pil = C0 /\ sample_power pil = 1) rows out.
Proof. exact nc_pil_all. Qed.
Print Assumptions C84_pilots_partial.
Theorem C84_one_dimension_refuted : forall row idx, normalise_and_center_pil (D1 row) idx = Err IndexError.
Proof. reflexivity. Qed.
Print Assumptions C84_one_dimension_refuted.
Example C84_case : exists out, normalise_and_center_pil (D2 [[C1; (7, 7); Ci]]) [true; false; true] = Ok (map (map Some) out) /\ length out = 1%nat.
Proof.
  destruct (C84_pilots_partial [true; false; true] [[C1; (7, 7); Ci]]) as (out & E & F).
  - intros row [<-|[]]. exists [C1; Ci]. split; [reflexivity|]. intros H.
    assert (X : C1 = Ci) by (apply H; [left; reflexivity|right; left; reflexivity]). injection X. lra.
  - exists out. split; [exact E|]. inversion F as [|? ? ? ? ? G]; subst. inversion G; subst. reflexivity.
Qed.

(** ** C85 *)
(** s is the standard deviation of the complex noise: signal power over noise power within the symbol
    rate is 10^(snr/10) *)
Theorem C85_noise_power : forall sig snr fb fs, 0 < fb -> 0 < fs -> exists s, 0 <= s /\
  s * s * Rpower 10 (snr / 10) = sample_power (concat sig) * (fs / fb) /\
  forall nr ni m row a b, nth_error sig m = Some row -> nth_error nr m = Some a -> nth_error ni m = Some b ->
    length a = length row -> length b = length row ->
    exists row', nth_error (change_snr sig snr fb fs nr ni) m = Some row' /\ length row' = length row /\
      forall k z x y, nth_error row k = Some z -> nth_error a k = Some x -> nth_error b k = Some y ->
        nth_error row' k = Some (z + Cscal (s / sqrt 2) (x, y))%C.
Proof.
  intros sig snr fb fs H1 H2. destruct (snr_strength_sqr sig snr fb fs H1 H2) as [A B].
  exists (snr_strength sig snr fb fs). split; [exact A|]. split; [exact B|]. intros. apply awgn_nth; assumption.
Qed.
Print Assumptions C85_noise_power.
(** 0 dB, unit power, one sample per symbol *)
Example C85_case : change_snr [[C1; Ci]] 0 1 1 [[sqrt 2; 0]] [[0; - sqrt 2]] = [[(2, 0); (0, 0)]].
Proof.
  destruct (C85_noise_power [[C1; Ci]] 0 1 1) as (s & Hs & E & F); [lra..|].
  assert (s = 1).
  { replace (0 / 10) with 0 in E by field. rewrite Rpower_O in E by lra. unfold sample_power in E. cbn in E.
    replace (1 + 1) with 2 in E by ring. unfold Cnorm2, C1, Ci in E. cbn [fst snd] in E. assert (s * s = 1) by lra. nra. }
  subst s. destruct (F [[sqrt 2; 0]] [[0; - sqrt 2]] 0%nat _ _ _ eq_refl eq_refl eq_refl eq_refl eq_refl) as (row' & R1 & R2 & R3).
  pose proof (R3 0%nat _ _ _ eq_refl eq_refl eq_refl) as Z0. pose proof (R3 1%nat _ _ _ eq_refl eq_refl eq_refl) as Z1.
  destruct row' as [|z0 [|z1 [|z2 row']]]; try discriminate. cbn [nth_error] in Z0, Z1. injection Z0 as ->. injection Z1 as ->.
  assert (L : length (change_snr [[C1; Ci]] 0 1 1 [[sqrt 2; 0]] [[0; - sqrt 2]]) = 1%nat) by reflexivity.
  destruct (change_snr [[C1; Ci]] 0 1 1 [[sqrt 2; 0]] [[0; - sqrt 2]]) as [|r [|r2 l]]; try discriminate.
  cbn [nth_error] in R1. injection R1 as ->.
  assert (0 < sqrt 2) by (apply sqrt_lt_R0; lra).
  apply (f_equal2 cons); [|reflexivity].
  apply (f_equal2 cons); [apply C_eq; cbn; field; lra|]. apply (f_equal2 cons); [apply C_eq; cbn; field; lra|reflexivity].
Qed.
