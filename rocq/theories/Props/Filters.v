(** Properties C68, C88-C91: filters and dispersion compensation. *)
From Coq Require Import List ZArith Bool Reals Arith Lia Lra.
From Verif Require Import Common.Py Common.Cplx Common.SumX Common.Dft Model.Helpers Model.Impair Model.Filters
  Spec.Equal Spec.ImpairSpec Spec.FilterSpec Proofs.FiltersP Proofs.FiltersQ Proofs.FiltersR Proofs.FiltersS.
Import ListNotations.
Local Open Scope R_scope.

(** ** C68 *)
Theorem C68_square : forall f beta T, 0 < beta <= 1 -> 0 < T ->
  exists rc rr, rcos_freq f beta T = Ok rc /\ rrcos_freq f beta T = Ok rr /\ length rr = length f /\
    map (fun v => v ^ 2) rr = rc /\ Forall (fun v => 0 <= v) rr.
Proof. intros f beta T Hb HT. apply rrcos_sqr; lra. Qed.
Print Assumptions C68_square.
(** the returned values are those of one function of frequency, and its shifts by 1/T add up to T *)
Theorem C68_nyquist : forall beta T, 0 < beta <= 1 -> 0 < T -> exists H, nyquist H T T /\
  (forall f, 0 <= H f <= T) /\ (forall f, (1 + beta) / (2 * T) <= Rabs f -> H f = 0) /\ (forall f, Rabs f <= (1 - beta) / (2 * T) -> H f = T) /\
  forall fl, rcos_freq fl beta T = Ok (map H fl).
Proof. exact rcos_function. Qed.
Print Assumptions C68_nyquist.
(** the signal-object version uses the symbol rate where the core function expects its inverse *)
Theorem C68_width_partial : forall sig fs fb beta, fb * fb = 1 -> 0 < fb ->
  rrcos_pulseshaping_sig sig fs fb beta None = rrcos_pulseshaping_sig sig fs fb beta (Some (1 / fb)).
Proof. exact fb_unit. Qed.
Print Assumptions C68_width_partial.
Theorem C68_width_refuted : ~ forall sig fs fb beta, 0 < fb -> 0 < fs ->
  rrcos_pulseshaping_sig sig fs fb beta None = rrcos_pulseshaping_sig sig fs fb beta (Some (1 / fb)).
Proof.
  intros H. destruct fb_width as [o1 [o2 [E1 [E2 E3]]]]. specialize (H [C1; C0] 4 2 1 ltac:(lra) ltac:(lra)).
  rewrite E1 in H. unfold rrcos_pulseshaping_sig in H. rewrite E2 in H. injection H as H. contradiction.
Qed.
Print Assumptions C68_width_refuted.
(** a roll-off of zero, allowed by the documentation, raises *)
Theorem C68_rolloff_refuted : forall f T, T <> 0 -> rcos_freq f 0 T = Err ZeroDivisionError /\ rrcos_freq f 0 T = Err ZeroDivisionError.
Proof. exact rolloff_zero. Qed.
Print Assumptions C68_rolloff_refuted.
Example C68_case : rcos_freq [0; 1 / 4; 1 / 2; -1 / 2; 2] (1 / 2) 1 = Ok [1; 1; 1 / 2; 1 / 2; 0].
Proof. exact rcos_points. Qed.

(** ** C88 *)
(** shaping and matched filtering in the frequency domain leaves no intersymbol interference *)
Theorem C88_no_isi : forall beta T fs os n, 0 < beta <= 1 -> 0 < T -> fs * T = INR os -> (2 <= os)%nat -> (1 <= n)%nat ->
  forall x up y1 y2 t, length x = n -> zero_stuffed os x up ->
  rrcos_pulseshaping up fs T beta None = Ok y1 -> rrcos_pulseshaping y1 fs T beta None = Ok y2 -> every os y2 t ->
  t = map (Cscal (/ INR os)) x.
Proof. exact no_isi. Qed.
Print Assumptions C88_no_isi.
Theorem C88_filter : forall sig fs T beta, 0 < beta <= 1 -> 0 < T -> sig <> [] ->
  exists out H, rrcos_pulseshaping sig fs T beta None = Ok out /\ filtered H fs sig out /\
    nyquist (fun f => H f ^ 2) T 1 /\ H 0 = 1 /\ (forall f, 0 <= H f <= 1) /\ forall f, (1 + beta) / (2 * T) <= Rabs f -> H f = 0.
Proof. exact shaping_filter. Qed.
Print Assumptions C88_filter.
Example C88_case : exists y1 y2, rrcos_pulseshaping [Ci; C0; C1; C0] 2 1 (1 / 2) None = Ok y1 /\
  rrcos_pulseshaping y1 2 1 (1 / 2) None = Ok y2 /\ nth 0 y2 C0 = Cscal (/ 2) Ci /\ nth 2 y2 C0 = Cscal (/ 2) C1.
Proof. exact no_isi_two. Qed.

(** ** C89 *)
(** a rectangle that removes c = floor(2n/bw) bins at either end of the spectrum ... *)
Theorem C89_lowpass_partial : forall sig bw c n, (1 <= c)%nat -> 0 < bw -> INR c <= 2 * INR n / bw < INR c + 1 -> Forall (fun r => length r = n) sig ->
  exists out, pre_filter sig bw = Ok out /\ Forall2 (filtered_bins (fun k =>
    let i := if (2 * k <? n)%nat then (k + n / 2)%nat else (k - (n - n / 2))%nat in
    if (c <=? i)%nat && (i + c <? n)%nat then C1 else C0)) sig out.
Proof. exact pre_filter_all. Qed.
Print Assumptions C89_lowpass_partial.
(** ... which is everything for all bandwidths that are fractions, and for those above twice the
    length *)
Theorem C89_fraction_refuted : forall sig bw, 0 < bw <= 2 -> pre_filter sig bw = Ok (map (fun r => repeat C0 (length r)) sig).
Proof. exact pre_filter_empty. Qed.
Print Assumptions C89_fraction_refuted.
Theorem C89_wide_refuted : forall sig bw n, Forall (fun r => length r = n) sig -> 2 * INR n < bw -> pre_filter sig bw = Ok (map (fun r => repeat C0 (length r)) sig).
Proof. exact pre_filter_huge. Qed.
Print Assumptions C89_wide_refuted.
Theorem C89_wdm_refuted : ~ exists signal bw os f out, pre_filter_wdm signal bw os f = Ok out.
Proof. intros (signal & bw & os & f & out & H). discriminate H. Qed.
Print Assumptions C89_wdm_refuted.
(** half the band of a constant *)
Example C89_case : pre_filter [[C1; C1]] (1 / 2) = Ok [[C0; C0]].
Proof. exact (C89_fraction_refuted [[C1; C1]] (1 / 2) ltac:(lra)). Qed.

(** ** C90 *)
(** one mode, or an even number of modes, of even length *)
Theorem C90_gauss_one_partial : forall row fs cutoff, Nat.Even (length row) -> cutoff <> 0 -> exists out H,
  filter_gauss (D1 row) fs cutoff = D1 out /\ filtered H fs row out /\ H 0 = 1 /\ H cutoff = 1 / 16 /\ forall f, 0 < H f <= 1.
Proof. exact gauss_one_all. Qed.
Print Assumptions C90_gauss_one_partial.
Theorem C90_gauss_modes_partial : forall rows fs cutoff, Nat.Even (length rows) -> cutoff <> 0 ->
  exists out, filter_gauss (D2 rows) fs cutoff = D2 out /\ Forall2 (fun x y => filter_gauss (D1 x) fs cutoff = D1 y) rows out.
Proof. exact gauss_modes. Qed.
Print Assumptions C90_gauss_modes_partial.
Theorem C90_exp_one_partial : forall row fs cutoff, Nat.Even (length row) -> row <> [] -> 0 < cutoff -> exists out H,
  filter_exp (D1 row) fs cutoff = Ok (D1 out) /\ filtered H fs row out /\ H 0 = 1 /\ H cutoff = 1 / 2 /\ forall f, 0 < H f <= 1.
Proof. exact exp_one_all. Qed.
Print Assumptions C90_exp_one_partial.
Theorem C90_exp_modes_partial : forall rows n fs cutoff, Nat.Even (length rows) -> Nat.Even n -> (0 < n)%nat -> rows <> [] -> Forall (fun r => length r = n) rows -> 0 < cutoff ->
  exists out, filter_exp (D2 rows) fs cutoff = Ok (D2 out) /\ Forall2 (fun x y => filter_exp (D1 x) fs cutoff = Ok (D1 y)) rows out.
Proof. exact exp_modes. Qed.
Print Assumptions C90_exp_modes_partial.
(** a tone at the cutoff loses 24 dB or 6 dB, not 3 dB *)
Theorem C90_cutoff_refuted : forall fs N k, Nat.Even N -> (0 < 2 * k < N)%nat -> 0 < fs -> exists g e,
  filter_gauss (D1 (tone N k)) fs (INR k * (fs / INR N)) = D1 g /\ sample_power g = / 256 /\
  filter_exp (D1 (tone N k)) fs (INR k * (fs / INR N)) = Ok (D1 e) /\ sample_power e = / 4 /\ sample_power (tone N k) = 1.
Proof. exact cutoff_tones. Qed.
Print Assumptions C90_cutoff_refuted.
(** three modes are returned in another order; a different one for each type *)
Theorem C90_modes_refuted : forall x y z fs cutoff ox oy oz,
  filter_gauss (D1 x) fs cutoff = D1 ox -> filter_gauss (D1 y) fs cutoff = D1 oy -> filter_gauss (D1 z) fs cutoff = D1 oz ->
  filter_gauss (D2 [x; y; z]) fs cutoff = D2 [oy; oz; ox].
Proof. exact gauss_three. Qed.
Print Assumptions C90_modes_refuted.
Theorem C90_exp_modes_refuted : forall x y z fs cutoff ox oy oz, length y = length x -> length z = length x ->
  filter_exp (D1 x) fs cutoff = Ok (D1 ox) -> filter_exp (D1 y) fs cutoff = Ok (D1 oy) -> filter_exp (D1 z) fs cutoff = Ok (D1 oz) ->
  filter_exp (D2 [x; y; z]) fs cutoff = Ok (D2 [oz; ox; oy]).
Proof. exact exp_three. Qed.
Print Assumptions C90_exp_modes_refuted.
(** odd lengths: a constant is attenuated *)
Theorem C90_odd_refuted : forall fs cutoff, fs <> 0 -> cutoff <> 0 -> exists out, filter_gauss (D1 [C1]) fs cutoff = D1 [out] /\ Cnorm2 out < 1.
Proof. exact gauss_odd_dc. Qed.
Print Assumptions C90_odd_refuted.
Example C90_case : filter_gauss (D1 (tone 4 1)) 4 1 = D1 (map (Cscal (1 / 16)) (tone 4 1)).
Proof. pose proof (gauss_tone 4 4 1 ltac:(exists 2%nat; reflexivity) ltac:(lia) ltac:(lra)) as H. replace (INR 1 * (4 / INR 4)) with 1 in H by (cbn; field). exact H. Qed.

(** ** C91 *)
(** one block over the whole signal: all-pass, inverted by -D *)
Theorem C91_whole_partial : forall E fs N L D wl out H, N = 0%nat \/ N = length E -> CDcomp E fs N L D wl = Ok (out, H) ->
  length out = length E /\ lenergy out = lenergy E /\ exists H', CDcomp out fs N L (- D) wl = Ok (E, H').
Proof.
  intros E fs N L D wl out H HN HC. destruct (cd_energy _ _ _ _ _ _ _ _ HN HC). split; [assumption|]. split; [assumption|].
  exact (cd_inverse _ _ _ _ _ _ _ _ HN HC).
Qed.
Print Assumptions C91_whole_partial.
Theorem C91_defined_partial : forall E fs N L D wl, N = 0%nat \/ N = length E -> exists out H, CDcomp E fs N L D wl = Ok (out, H).
Proof. intros E fs N L D wl HN. destruct (cd_whole E fs N L D wl HN) as [o [E1 _]]. eauto. Qed.
Print Assumptions C91_defined_partial.
(** bin k of n is treated as frequency fs/2 (2 i/(n-1) - 1), i its position in the shifted spectrum;
    the phase is that of the fibre, not its opposite *)
Theorem C91_gain_partial : forall E fs N L D wl out H, N = 0%nat \/ N = length E -> (2 <= length E)%nat -> CDcomp E fs N L D wl = Ok (out, H) ->
  filtered_bins (fun k =>
    let n := length E in
    let i := if (2 * k <? n)%nat then (k + n / 2)%nat else (k - (n - n / 2))%nat in
    let f := fs / 2 * (2 * INR i / (INR n - 1) - 1) in
    Cexpi (- (D * wl ^ 2 * L * (2 * PI * f) ^ 2 / (4 * PI * 299792458)))) E out.
Proof. exact cd_gain. Qed.
Print Assumptions C91_gain_partial.
(** blocks of 4 q samples: defined, cut to a multiple of 2 q samples, and put together in order *)
Theorem C91_blocks_partial : forall E fs q L D wl, (1 <= q)%nat -> (4 * q)%nat <> length E -> exists out H,
  CDcomp E fs (4 * q) L D wl = Ok (out, H) /\ length out = (2 * q * (length E / (2 * q)))%nat /\
  (D * L = 0 -> out = firstn (2 * q * (length E / (2 * q))) E).
Proof.
  intros E fs q L D wl Hq HN. destruct (cd_blocks E fs q L D wl Hq HN) as [out [E1 [E2 _]]].
  eexists. eexists. split; [exact E1|]. split; [exact E2|]. intros HD. exact (cd_blocks_id E fs q L D wl out _ Hq HN HD E1).
Qed.
Print Assumptions C91_blocks_partial.
(** it does not undo the fibre *)
Theorem C91_fibre_refuted : ~ forall E fs L D wl y out H, 0 < fs -> 0 < L -> 0 < D -> 0 < wl ->
  add_dispersion (D1 E) fs D L wl = D1 y -> CDcomp y fs 0 L D wl = Ok (out, H) -> out = E.
Proof.
  intros H. destruct fibre_comp as [h [E1 E2]].
  specialize (H [C1; C1] 1 1 (4 * 299792458) 1 [C1; C1] [Copp C1; Copp C1] h ltac:(lra) ltac:(lra) ltac:(lra) ltac:(lra) E1 E2).
  apply (f_equal (fun l => fst (hd C0 l))) in H. cbn in H. lra.
Qed.
Print Assumptions C91_fibre_refuted.
(** blocks must be a multiple of four samples *)
Theorem C91_blocks_refuted : forall E fs N L D wl, N <> 0%nat -> N <> length E -> (N mod 4 <> 0)%nat -> (N <= 2 * length E)%nat -> (7 < N)%nat ->
  CDcomp E fs N L D wl = Err ValueError.
Proof. exact cd_none. Qed.
Print Assumptions C91_blocks_refuted.
Example C91_case : exists H, add_dispersion (D1 [C1; C1]) 1 (4 * 299792458) 1 1 = D1 [C1; C1] /\
  CDcomp [C1; C1] 1 0 1 (4 * 299792458) 1 = Ok ([Copp C1; Copp C1], H).
Proof. exact fibre_comp. Qed.
