(** The transmitter does not depend on the amplitude of its input. *)
From Coq Require Import List Arith ZArith Reals Lra Lia.
From Verif Require Import Common.Py Common.Cplx Common.ListX Common.SumX Common.Dft Model.Helpers Model.Impair Model.Filters Model.Transmitter
  Spec.Seq Spec.Equal Spec.ImpairSpec Spec.TxS Proofs.ImpairR Proofs.ImpairS Proofs.TxP.
Import ListNotations.
Local Open Scope R_scope.

Lemma concat_scale a X : concat (scale a X) = map (Cscal a) (concat X).
Proof. unfold scale. rewrite concat_map. reflexivity. Qed.
Lemma rmaxl_scal a l : 0 < a -> rmaxl (map (Rmult a) l) = match rmaxl l with Ok m => Ok (a * m) | Err e => Err e end.
Proof.
  intros Ha. destruct l as [|x l]; [reflexivity|]. cbn [map rmaxl]. apply (f_equal Ok). revert x.
  induction l as [|y l IH]; intros x; [reflexivity|]. cbn [map fold_left]. rewrite <- IH. f_equal.
  unfold Rmax. destruct (Rle_dec (a * x) (a * y)), (Rle_dec x y); try reflexivity; nra.
Qed.
Lemma row_peak_scal a row : 0 < a -> row_peak (map (Cscal a) row) = match row_peak row with Ok m => Ok (a * m) | Err e => Err e end.
Proof.
  intros Ha. unfold row_peak. rewrite !map_map.
  rewrite (map_ext (fun x => Rabs (fst (Cscal a x))) (fun x => a * Rabs (fst x)))
    by (intros z; unfold Cscal; cbn [fst]; rewrite Rabs_mult, (Rabs_right a) by lra; reflexivity).
  rewrite (map_ext (fun x => Rabs (snd (Cscal a x))) (fun x => a * Rabs (snd x)))
    by (intros z; unfold Cscal; cbn [snd]; rewrite Rabs_mult, (Rabs_right a) by lra; reflexivity).
  rewrite <- (map_map (fun x : R * R => Rabs (fst x)) (Rmult a)), <- (map_map (fun x : R * R => Rabs (snd x)) (Rmult a)), !rmaxl_scal by exact Ha.
  destruct (rmaxl (map (fun z : R * R => Rabs (fst z)) row)); [|reflexivity]. cbn [bind].
  destruct (rmaxl (map (fun z : R * R => Rabs (snd z)) row)); [|reflexivity]. cbn [bind].
  apply (f_equal Ok). unfold Rmax. destruct (Rle_dec (a * a0) (a * a1)), (Rle_dec a0 a1); try reflexivity; nra.
Qed.
Lemma cdiv_row_scal a m row : 0 < a -> cdiv_row (a * m) (map (Cscal a) row) = cdiv_row m row.
Proof.
  intros Ha. unfold cdiv_row. rewrite map_map. apply map_ext. intros z.
  destruct (Req_EM_T (a * m) 0) as [E|E], (Req_EM_T m 0) as [F|F]; [reflexivity|nra|subst; exfalso; apply E; ring|].
  apply (f_equal Some). rewrite Cscal_scal. f_equal. field. split; lra.
Qed.
Lemma rescale_row_scal a row s : 0 < a -> rescale_row (map (Cscal a) row) s = rescale_row row s.
Proof.
  intros Ha. unfold rescale_row. rewrite row_peak_scal by exact Ha. destruct (row_peak row) as [m|e]; [|reflexivity].
  cbn [bind]. rewrite cdiv_row_scal by exact Ha. reflexivity.
Qed.
Lemma mapM_unit_scal a rows : 0 < a ->
  match mapM row_peak (scale a rows), mapM row_peak rows with Ok _, Ok _ => True | Err e, Err e' => e = e' | _, _ => False end.
Proof.
  intros Ha. induction rows as [|r rows IH]; [exact I|]. unfold scale in *. cbn [map mapM]. rewrite row_peak_scal by exact Ha.
  destruct (row_peak r); [|reflexivity]. cbn [bind].
  destruct (mapM row_peak (map (map (Cscal a)) rows)), (mapM row_peak rows); cbn [bind]; auto.
Qed.
Lemma rescale_signal_scal a rows s : 0 < a -> rescale_signal (D2 (scale a rows)) [s] = rescale_signal (D2 rows) [s].
Proof.
  intros Ha. unfold rescale_signal. pose proof (mapM_unit_scal a rows Ha) as H.
  destruct (mapM row_peak (scale a rows)), (mapM row_peak rows); try contradiction; [|subst; reflexivity]. cbn [bind]. clear - Ha.
  assert (B : forall X : list (list C), broadcast X [s] = Ok (map (fun x => (x, s)) X)) by (intros [|? [|? ?]]; reflexivity).
  rewrite !B. cbn [bind]. clear B. unfold scale. induction rows as [|r rows IH]; [reflexivity|]. cbn [map mapM fst snd].
  rewrite IH, rescale_row_scal by exact Ha. reflexivity.
Qed.

(** ** the stages *)
Lemma dac_clip_scal a sig c : 0 < a -> dac_clip (scale a sig) c = dac_clip sig c \/
  (dac_clip sig c = Ok (Some sig) /\ dac_clip (scale a sig) c = Ok (Some (scale a sig))).
Proof.
  intros Ha. unfold dac_clip. destruct (isclose c 1); [right; split; reflexivity|left].
  destruct (Req_EM_T c 0); [reflexivity|]. rewrite rescale_signal_scal by exact Ha. reflexivity.
Qed.
Lemma scale_scale a b X : scale a (scale b X) = scale (a * b) X.
Proof. unfold scale. rewrite map_map. apply map_ext. intros r. rewrite map_map. apply map_ext. intros z. apply Cscal_scal. Qed.
Lemma quantize_scal a sig b : 0 < a -> quantize_signal_New true (scale a sig) b true true =
  match quantize_signal_New true sig b true true with Ok o => Ok (scale a o) | Err e => Err e end.
Proof.
  intros Ha. unfold quantize_signal_New. rewrite rescale_signal_scal by exact Ha.
  destruct (rescale_signal (D2 sig) [1]) as [s|e]; [|reflexivity]. cbn [bind].
  destruct (quant_rows _ _ s) as [o|e]; [|reflexivity]. cbn [bind].
  rewrite concat_scale, row_peak_scal by exact Ha. destruct (row_peak (concat sig)) as [m|e]; [|reflexivity]. cbn [bind].
  apply (f_equal Ok). fold (scale (a * m) o). fold (scale m o). symmetry; apply scale_scale.
Qed.
Lemma enob_power_scal a m e : enob_noise_power (a * m) e = a * a * enob_noise_power m e.
Proof. unfold enob_noise_power. field. apply Rgt_not_eq. unfold Rpower. apply exp_pos. Qed.
Lemma enob_power_nonneg m e : 0 <= enob_noise_power m e.
Proof. unfold enob_noise_power. pose proof (pow2_ge_0 (m / Rpower 2 (e - 1))). lra. Qed.
Lemma sqrt_sq_scal a x : 0 < a -> 0 <= x -> sqrt (2 * (a * a * x)) = a * sqrt (2 * x).
Proof.
  intros Ha Hx. replace (2 * (a * a * x)) with ((a * a) * (2 * x)) by ring.
  rewrite sqrt_mult by nra. rewrite sqrt_square by lra. reflexivity.
Qed.
Lemma add_awgn_scal a s sig nr ni : add_awgn (scale a sig) (a * s) nr ni = scale a (add_awgn sig s nr ni).
Proof.
  unfold add_awgn, scale. generalize (combine nr ni). clear nr ni. induction sig as [|r sig IH]; intros [|n nn]; try reflexivity.
  cbn [map combine]. apply (f_equal2 cons); [|apply IH]. unfold awgn_row. cbn [fst snd]. generalize (combine (fst n) (snd n)). clear.
  induction r as [|z r IH]; intros [|d dd]; try reflexivity. cbn [map combine fst snd]. apply (f_equal2 cons); [|apply IH].
  unfold Cscal, Cadd. apply C_eq; cbn [fst snd]; unfold Rdiv; ring.
Qed.
Lemma enob_scal a sig e nr ni : 0 < a ->
  (let! r := apply_enob_as_awgn (scale a sig) e nr ni in Ok (fst r)) =
  match (let! r := apply_enob_as_awgn sig e nr ni in Ok (fst r)) with Ok o => Ok (scale a o) | Err x => Err x end.
Proof.
  intros Ha. unfold apply_enob_as_awgn. rewrite concat_scale, row_peak_scal by exact Ha.
  destruct (row_peak (concat sig)) as [m|x]; [|reflexivity]. cbn [bind fst]. apply (f_equal Ok).
  rewrite enob_power_scal, sqrt_sq_scal by (exact Ha || apply enob_power_nonneg). apply add_awgn_scal.
Qed.
Lemma row_length_scale a sig : row_length (scale a sig) = row_length sig.
Proof. destruct sig as [|r sig]; [reflexivity|]. cbn. apply map_length. Qed.
Lemma DAC_filter_scal des a sig fs cut fn : apply_DAC_filter des (scale a sig) fs cut fn =
  match apply_DAC_filter des sig fs cut fn with Ok o => Ok (scale a o) | Err x => Err x end.
Proof.
  unfold apply_DAC_filter. destruct fn as [rows|].
  - rewrite row_length_scale. destruct (load_dac_response rows fs (row_length sig)); reflexivity.
  - unfold filter_sos. destruct (des Bessel 2%nat cut fs) as [sys|x]; [|reflexivity]. cbn [bind]. apply (f_equal Ok).
    unfold scale. rewrite !map_map. apply map_ext. intros r. apply sosfilt_scal.
Qed.
Lemma scale_one X : scale 1 X = X.
Proof.
  unfold scale. rewrite <- (map_id X) at 2. apply map_ext. intros r. rewrite <- (map_id r) at 2. apply map_ext. intros z. cring.
Qed.
(** the DAC keeps the amplitude, or (when clipping) sets it *)
Lemma DAC_scal des a sig fs q nr ni : 0 < a -> exists b, 0 < b /\ sim_DAC_response des (scale a sig) fs q nr ni =
  match sim_DAC_response des sig fs q nr ni with Ok (Some o) => Ok (Some (scale b o)) | r => r end.
Proof.
  intros Ha. unfold sim_DAC_response. destruct (dac_clip_scal a sig (q_clip q) Ha) as [E|[E F]].
  - exists 1. split; [lra|]. rewrite E. destruct (dac_clip sig (q_clip q)) as [[s|]|]; try reflexivity. cbn [bind].
    destruct (if (q_bits q =? 0)%nat then _ else _) as [s1|]; [|reflexivity]. cbn [bind].
    destruct (if isclose (q_enob q) 0 then _ else _) as [s2|]; [|reflexivity]. cbn [bind].
    destruct (match q_filter q with None => _ | _ => _ end) as [s3|]; [|reflexivity]. cbn [bind]. rewrite scale_one. reflexivity.
  - exists a. split; [exact Ha|]. rewrite E, F. cbn [bind].
    assert (Q : (if (q_bits q =? 0)%nat then Ok (scale a sig) else quantize_signal_New true (scale a sig) (q_bits q) true true) =
      match (if (q_bits q =? 0)%nat then Ok sig else quantize_signal_New true sig (q_bits q) true true) with Ok o => Ok (scale a o) | Err x => Err x end).
    { destruct (q_bits q =? 0)%nat; [reflexivity|apply quantize_scal, Ha]. }
    rewrite Q. clear Q. destruct (if (q_bits q =? 0)%nat then _ else _) as [s1|]; [|reflexivity]. cbn [bind].
    assert (N : (if isclose (q_enob q) 0 then Ok (scale a s1) else let! r := apply_enob_as_awgn (scale a s1) (q_enob q) nr ni in Ok (fst r)) =
      match (if isclose (q_enob q) 0 then Ok s1 else let! r := apply_enob_as_awgn s1 (q_enob q) nr ni in Ok (fst r)) with Ok o => Ok (scale a o) | Err x => Err x end).
    { destruct (isclose (q_enob q) 0); [reflexivity|apply enob_scal, Ha]. }
    rewrite N. clear N. destruct (if isclose (q_enob q) 0 then _ else _) as [s2|]; [|reflexivity]. cbn [bind].
    destruct (q_filter q) as [[cut fn]|]; [|reflexivity]. rewrite DAC_filter_scal.
    destruct (apply_DAC_filter des s2 fs cut fn); reflexivity.
Qed.
Lemma amplifier_scal a sig v : 0 < a -> ideal_amplifier_response (scale a sig) v = ideal_amplifier_response sig v.
Proof.
  intros Ha. unfold ideal_amplifier_response. rewrite concat_scale, row_peak_scal by exact Ha.
  destruct (row_peak (concat sig)) as [m|]; [|reflexivity]. cbn [bind]. apply (f_equal Ok).
  unfold scale. rewrite map_map. apply map_ext. intros r. rewrite cdiv_row_scal by exact Ha. reflexivity.
Qed.
Lemma tx_scal des a sig fs v q p nr ni : 0 < a ->
  sim_tx_response des (map (map (Cscal a)) sig) fs v q p nr ni = sim_tx_response des sig fs v q p nr ni.
Proof.
  intros Ha. fold (scale a sig). unfold sim_tx_response. destruct (DAC_scal des a sig fs q nr ni Ha) as (b & Hb & E). rewrite E.
  destruct (sim_DAC_response des sig fs q nr ni) as [[s|]|]; [|reflexivity..]. cbn [bind]. rewrite amplifier_scal by exact Hb. reflexivity.
Qed.
