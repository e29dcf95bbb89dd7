(** Properties C135-C137: rescaling about a mid-position, the centring shift, symbol based normalisation. *)
From Coq Require Import List ZArith Arith Bool Reals Lia Lra.
From Verif Require Import Common.Py Common.Cplx Model.Constellation Model.Helpers Model.Sync Model.Quality Model.Norm Spec.ImpairSpec Proofs.ImpairS Proofs.NormP.
Import ListNotations.
Local Open Scope R_scope.

(** C135.  Full statement: set_mid_and_resale moves the mid-position of a signal to the given value and rescales it
    to (-swing, swing).  False for a mid-position other than 0 and for one-dimensional signals. *)
Theorem C135_mid_zero_partial : forall row swing, 0 <= swing -> ~ constant row -> exists out a b,
  set_mid_and_resale (D2 [row]) C0 [swing] = Ok [map Some out] /\ peak swing out /\
  spans (- a) a (map fst out) /\ spans (- b) b (map snd out) /\
  exists m s, 0 <= s /\ out = map (fun z => Cscal s (z - m)%C) row.
Proof. exact mid_rescale. Qed.
Print Assumptions C135_mid_zero_partial.
Theorem C135_mid_refuted : forall d m, 0 < d -> 0 < m -> set_mid_and_resale (D2 [[(0, 0); (2 * d, 0)]]) (m, 0) [1] =
  Ok [[Some ((m - d) / (m + d), 0); Some (1, 0)]] /\ ((m - d) / (m + d) + 1) / 2 = m / (m + d).
Proof. exact mid_offset. Qed.
Print Assumptions C135_mid_refuted.
Theorem C135_one_dimension_refuted : forall row mid swing, row <> [] -> set_mid_and_resale (D1 row) mid swing = Err IndexError.
Proof. exact mid_one_dimension. Qed.
Print Assumptions C135_one_dimension_refuted.
Example C135_ex : ~ constant [(1, 0); (3, 2)] /\ peak 2 [(-2, -2); (2, 2)] /\ spans (-2) 2 (map fst [(-2, -2); (2, 2)]) /\
  [(-2, -2); (2, 2)] = map (fun z => Cscal 2 (z - (2, 1))%C) [(1, 0); (3, 2)].
Proof.
  split; [|split; [|split]].
  - intros H. assert (W : fst (1, 0) = fst (3, 2)) by (rewrite (H (1, 0) (3, 2)); [reflexivity|now left|right; now left]). cbn [fst] in W. lra.
  - split; [|exists (2, 2); split; [right; now left|left; cbn [fst]; apply Rabs_right; lra]].
    intros z [<-|[<-|[]]]; split; cbn [fst snd]; unfold Rabs; destruct (Rcase_abs _); lra.
  - cbn [map fst]. split; [now left|]. split; [right; now left|]. intros x [<-|[<-|[]]]; lra.
  - cbn [map]. apply (f_equal2 cons); [|apply (f_equal2 cons); [|reflexivity]]; apply C_eq; unfold Cscal, Csub; cbn [fst snd]; lra.
Qed.

(** C136: adding get_center_shift_fac to a non-empty mode makes its mean zero, and no other constant does. *)
Theorem C136 : forall rows i row, nth_error rows i = Some row -> row <> [] ->
  exists c, nth_error (get_center_shift_fac (D2 rows)) i = Some (Some c) /\ sample_mean (map (fun z => (z + c)%C) row) = C0 /\
    forall c', sample_mean (map (fun z => (z + c')%C) row) = C0 -> c' = c.
Proof. exact shift_fac_rows. Qed.
Print Assumptions C136.
Theorem C136_one_dimension : forall row, row <> [] ->
  exists c, get_center_shift_fac (D1 row) = [Some c] /\ sample_mean (map (fun z => (z + c)%C) row) = C0.
Proof. exact shift_fac_flat. Qed.
Print Assumptions C136_one_dimension.
Example C136_ex : get_center_shift_fac (D2 [[(1, 0); (3, 2)]]) = [Some (-2, -1)].
Proof.
  unfold get_center_shift_fac, shift_row, Cmean. cbn [map length]. apply (f_equal (fun c => [Some c])).
  apply C_eq; unfold Copp, Cscal; cbn; lra.
Qed.

(** C137: normalize_and_center(symbol_based=True, synced=True). *)
Theorem C137 : forall mp symbols sig res, length symbols = length sig -> row_len symbols = row_len sig ->
  est_snr mp symbols (map (fun r => map (fun z => (z - sample_mean r)%C) r) sig) true = Ok (map Some res) -> Forall (fun p => 0 < fst p) res ->
  exists out, symbol_normalise mp symbols sig true = Ok (map (map Some) out) /\
    est_snr mp symbols out true = Ok (map (fun p => Some (1, snd p / fst p)) res) /\
    Forall2 (fun x y => (x <> [] -> sample_mean y = C0) /\ exists m a, shifted_scaled m a x y) sig out.
Proof. exact symbol_normalise_ok. Qed.
Print Assumptions C137.
(** two symbols +-1 received as 2 + 3, 2 - 3: signal power 9, no noise *)
Example C137_ex : estimate_snr [(3, 0); (-3, 0)] [(1, 0); (-1, 0)] [(1, 0); (-1, 0)] = Some (9, 0).
Proof. exact norm_ex. Qed.
