(** Properties C138-C141: correction of the frequency offset found by the frame synchronisation, Monte Carlo MI and
    GMI, BER of hybrid formats. *)
From Coq Require Import List ZArith Arith Bool Permutation Reals Lia Lra.
From Verif Require Import Common.Py Common.Cplx Model.Constellation Model.Phase Model.TheorySim Spec.Geometry Spec.ImpairSpec Spec.PhaseSpec Proofs.TheorySimP.
Import ListNotations.
Local Open Scope R_scope.

(** C138.  Full statement: corr_foe removes from every mode the frequency offset found for it, and can be called any
    number of times.  The code removes the mean offset from all modes and then replaces the offsets by an integer. *)
Theorem C138_mean_partial : forall rows os l add, (length rows <= length l)%nat -> exists out, corr_foe rows os (FoeArr l) add = (Ok out, ZeroFoe) /\
  rotated_by (fun _ n => - (2 * PI * INR (n + 1) * (Rsum l / INR (length l) + add) / os)) rows out.
Proof. exact corr_foe_rot. Qed.
Print Assumptions C138_mean_partial.
Theorem C138_carrier_partial : forall sig fo fs os l add, os <> 0 -> fs <> 0 -> length l = length sig -> Rsum l / INR (length l) + add = fo * os / fs ->
  exists out, corr_foe (add_carrier_offset sig fo fs) os (FoeArr l) add = (Ok out, ZeroFoe) /\ rotated_by (fun _ _ => - (2 * PI * fo / fs)) sig out.
Proof. exact corr_foe_carrier. Qed.
Print Assumptions C138_carrier_partial.
Theorem C138_mode_offsets_refuted : forall a b os f, os <> 0 -> corr_foe [a; b] os (FoeArr [f; - f]) 0 = (Ok [a; b], ZeroFoe).
Proof. exact corr_foe_opposite. Qed.
Print Assumptions C138_mode_offsets_refuted.
Theorem C138_second_call_refuted : forall rows rows' os f add add',
  fst (corr_foe rows' os (snd (corr_foe rows os f add)) add') = Err AttributeError.
Proof. exact corr_foe_twice. Qed.
Print Assumptions C138_second_call_refuted.
Example C138_ex : exists out, corr_foe (add_carrier_offset [[(1, 0); (0, 1)]; [(1, 1); (2, 0)]] 1 4) 2 (FoeArr [1 / 4; 3 / 4]) 0 = (Ok out, ZeroFoe) /\
  rotated_by (fun _ _ => - (2 * PI * 1 / 4)) [[(1, 0); (0, 1)]; [(1, 1); (2, 0)]] out.
Proof. apply C138_carrier_partial; [lra|lra|reflexivity|]. rewrite !Rsum_cons. change (Rsum []) with 0. cbn [length INR]. lra. Qed.

(** C139.  Full statement: the result of sim_mi_mc is at most log2 of the size of the alphabet, approaches it for well
    spaced alphabets, does not depend on the scale or the order of the alphabet, and the caller's array is unchanged.
    The last part is false: the array is normalised in place. *)
Theorem C139_value : forall symbols snr g, sample_power symbols <> 0 -> g <> [] ->
  exists v, snd (sim_mi_mc symbols snr g) = Some v /\ v <= ln (INR (length symbols)) / ln 2 /\
  forall d G, minimum_distance symbols d -> 0 <= d -> (forall z, In z g -> Cabs z <= G) ->
    let N0 := Rpower 10 (- snr / 10) in let d' := d / sqrt (sample_power symbols) in let G' := G * sqrt (N0 / 2) in 2 * G' <= d' ->
    ln (INR (length symbols)) / ln 2 - ln (1 + INR (length symbols) * exp (- (d' * (d' - 2 * G')) / N0)) / ln 2 <= v.
Proof. exact sim_value. Qed.
Print Assumptions C139_value.
Theorem C139_scale : forall a symbols snr g, 0 < a -> sim_mi_mc (map (Cscal a) symbols) snr g = sim_mi_mc symbols snr g.
Proof. exact sim_scale. Qed.
Print Assumptions C139_scale.
Theorem C139_order : forall s s' snr g, Permutation s s' -> snd (sim_mi_mc s snr g) = snd (sim_mi_mc s' snr g).
Proof. exact sim_perm. Qed.
Print Assumptions C139_order.
Theorem C139_array_refuted : forall symbols snr g, sample_power symbols <> 0 ->
  exists a, 0 < a /\ fst (sim_mi_mc symbols snr g) = map Some (map (Cscal a) symbols) /\ sample_power (map (Cscal a) symbols) = 1.
Proof. exact sim_array_power. Qed.
Print Assumptions C139_array_refuted.
Theorem C139_no_power_partial : forall symbols snr g, sample_power symbols = 0 -> sim_mi_mc symbols snr g = (map (fun _ => None) symbols, None).
Proof. exact sim_zero. Qed.
Print Assumptions C139_no_power_partial.
Example C139_ex : sample_power [(2, 0); (-2, 0)] = 4 /\ minimum_distance [(2, 0); (-2, 0)] 4.
Proof. exact sim_ex. Qed.

(** C140: cal_gmi gives one value per SNR, at most log2 M, that approaches log2 M when the symbol spacing is large
    against the noise; the value for an SNR does not depend on the others. *)
Theorem C140_bounds : forall k snr g, (1 <= k)%nat -> length snr = length g -> Forall (fun l => l <> []) g ->
  exists mp vs, qam_mapping k = Ok mp /\ theory_cal_gmi k snr g = Ok (map Some vs) /\ length vs = length snr /\
    forall i s l v, nth_error snr i = Some s -> nth_error g i = Some l -> nth_error vs i = Some v ->
      v <= INR k /\
      forall d G, minimum_distance (coded_symbols mp) d -> 0 <= d -> (forall z, In z l -> Cabs z <= G) ->
        let lin := Rpower 10 (s / 10) in let G' := G / sqrt (2 * lin) in 2 * G' <= d ->
        INR k - INR k * (ln (1 + 2 ^ k * exp (- lin * (d * (d - 2 * G')))) / ln 2) <= v.
Proof. exact theory_gmi. Qed.
Print Assumptions C140_bounds.
Theorem C140_elementwise : forall k s1 s2 g1 g2, length s1 = length g1 -> theory_cal_gmi k (s1 ++ s2) (g1 ++ g2) =
  (let! a := theory_cal_gmi k s1 g1 in let! b := theory_cal_gmi k s2 g2 in Ok (a ++ b)).
Proof. exact theory_gmi_app. Qed.
Print Assumptions C140_elementwise.
(** the alphabet has a minimum distance for every M *)
Example C140_ex : exists mp d, qam_mapping 4 = Ok mp /\ minimum_distance (coded_symbols mp) d /\ 0 <= d.
Proof. exact gmi_ex. Qed.

(** C141.  Full statement: hybrid_qam_ber_vs_esn0 is the mean of the BERs of the two formats weighted by their bits.
    The function fails for all arguments: the name theory is not defined in theory.py. *)
Theorem C141_refuted : forall snr pr fr M1 M2, hybrid_qam_ber_vs_esn0 snr pr fr M1 M2 = Err NameError.
Proof. exact hybrid_fails. Qed.
Print Assumptions C141_refuted.
(** the expression of the return statement for any BER function in place of theory.MQAM_BERvsEsN0 *)
Theorem C141_expression_partial : forall ber snr pr fr M1 M2, 1 < M1 -> 1 < M2 -> 0 <= fr <= 1 -> 0 < pr -> exists v b1 b2 s1 s2, hybrid_expr (Ok ber) snr pr fr M1 M2 = Ok v /\
  b1 = ber s1 M1 /\ b2 = ber s2 M2 /\ s2 = pr * s1 /\ (1 - fr) * s1 + fr * s2 = Rpower 10 (snr / 10) /\
  v * ((1 - fr) * (ln M1 / ln 2) + fr * (ln M2 / ln 2)) = (1 - fr) * (ln M1 / ln 2) * b1 + fr * (ln M2 / ln 2) * b2 /\ Rmin b1 b2 <= v <= Rmax b1 b2.
Proof. exact hybrid_mean. Qed.
Print Assumptions C141_expression_partial.
Example C141_ex : exists v, hybrid_expr (Ok (fun s _ => / s)) 0 1 (1 / 2) 4 4 = Ok v /\ v = 1.
Proof. exact hybrid_ex. Qed.
