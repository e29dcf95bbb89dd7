(** Properties C20-C27: decisions and quality metrics. *)
From Coq Require Import List ZArith Bool Reals Arith Lia Lra.
From Verif Require Import Common.Py Common.Cplx Model.Gray Model.Constellation Model.Decision Model.Sync Model.Quality
  Spec.Bits Spec.Geometry Spec.Seq Spec.Metrics Proofs.SyncP Proofs.DecisionP Proofs.QamP Proofs.QualityP Proofs.QualityQ Proofs.QualityR Proofs.QualityS Proofs.QualityT.
Import ListNotations.
Local Open Scope R_scope.

(** C20 *)
Theorem C20_make_decision : forall alphabet e, alphabet <> [] ->
  exists out, make_decision e alphabet = Ok out /\ length out = length e /\
  forall j x, nth_error e j = Some x ->
    exists s i, nth_error out j = Some (s, Cabs (x - s)%C, i) /\ nearest_first alphabet x i s /\ (In x alphabet -> s = x).
Proof. exact c20. Qed.
Print Assumptions C20_make_decision.
Theorem C20_empty_alphabet : forall x e, make_decision (x :: e) [] = Err ValueError.
Proof. intros x e. reflexivity. Qed.
Print Assumptions C20_empty_alphabet.
(** method of the signal classes, whose indices are stored in 16 bits *)
Theorem C20_signal : forall k mp sig, (1 <= k <= 16)%nat -> lib_mapping k mp ->
  exists out, signal_make_decision mp sig = Ok out /\
  Forall2 (Forall2 (fun x t => nearest_first (coded_symbols mp) x (snd t) (fst (fst t)) /\ snd (fst t) = Cabs (x - fst (fst t))%C)) sig out.
Proof. exact c20_signal. Qed.
Print Assumptions C20_signal.
(** two equal symbols: the first is taken *)
Example C20_case : exists d, make_decision [(3, 0)] [(0, 0); (2, 0); (2, 0)] = Ok [((2, 0), d, 1%nat)].
Proof.
  destruct (C20_make_decision [(0, 0); (2, 0); (2, 0)] [(3, 0)]) as (out & E & L & H); [discriminate|].
  destruct (H 0%nat (3, 0) eq_refl) as (s & i & Ho & (N1 & N2 & N3) & _). destruct out as [|o [|o2 out]]; try discriminate. cbn in Ho. injection Ho as ->.
  exists (Cabs ((3, 0) - s)%C). rewrite E. do 2 f_equal.
  assert (A : forall a, Cnorm2 ((3, 0) - (a, 0))%C = (3 - a) * (3 - a)) by (intros a; unfold Cnorm2, Csub; cbn; ring).
  destruct i as [|[|[|i]]]; cbn in N1; try (destruct i; discriminate).
  - injection N1 as <-. specialize (N2 1%nat (2, 0) eq_refl). apply Cabs_le in N2. rewrite !A in N2. lra.
  - injection N1 as <-. reflexivity.
  - injection N1 as <-. specialize (N3 1%nat (2, 0) ltac:(lia) eq_refl). lra.
Qed.

(** C21: false in general.  True if some symbol is nearer than sqrt 1000; then the three decision
    helpers agree (the argmin version returns the distance, the others its square). *)
Theorem C21_det_symbol_partial : forall x symbs, (exists t, In t symbs /\ Cabs (x - t)%C ^ 2 < 1000) ->
  exists i s, nearest_first symbs x i s /\ det_symbol x symbs = (s, Cabs (x - s)%C ^ 2) /\
    dsp_det_symbol x symbs = (Some s, Cabs (x - s)%C ^ 2) /\ det_symbol_argmin x symbs = Ok (s, Cabs (x - s)%C, i).
Proof. exact c21. Qed.
Print Assumptions C21_det_symbol_partial.
(** 100 with the alphabet {0}: "1", which is no symbol, respectively an unbound variable *)
Theorem C21_far_sample_refuted : ~ In C1 [C0] /\ det_symbol (100, 0) [C0] = (C1, 1000) /\ fst (dsp_det_symbol (100, 0) [C0]) = None.
Proof. exact c21_far. Qed.
Print Assumptions C21_far_sample_refuted.
Example C21_case : exists i s, det_symbol (3, 1) [C0; (2, 0)] = (s, Cabs ((3, 1) - s)%C ^ 2) /\ nth_error [C0; (2, 0)] i = Some s.
Proof.
  destruct (C21_det_symbol_partial (3, 1) [C0; (2, 0)]) as (i & s & (N1 & _) & E & _); [|eauto].
  exists C0. split; [now left|]. rewrite Cabs_pow2. unfold Cnorm2, Csub, C0. cbn. lra.
Qed.

(** C22.  tx, rx: what is compared after synchronisation (with synced = true: rx is the signal and tx
    the reference repeated cyclically, C17). *)
Theorem C22_rates : forall k mp, (1 <= k <= 16)%nat -> lib_mapping k mp -> forall symbols sig synced tx rx N,
  signal_sync_and_adjust symbols sig synced = Ok (tx, rx) ->
  (0 < N)%nat -> rect tx N -> rect rx N -> length tx = length rx -> over (coded_symbols mp) tx ->
  exists ser ber, cal_ser mp symbols sig synced = Ok (map Some ser) /\ cal_ber mp symbols sig synced = Ok (map Some ber) /\
    length ser = length rx /\ length ber = length rx /\
    forall m t r, nth_error tx m = Some t -> nth_error rx m = Some r ->
      exists s b dec, nth_error ser m = Some s /\ nth_error ber m = Some b /\ Forall2 (nearest (coded_symbols mp)) r dec /\
        INR N * s = INR (n_errors dec t) /\ (0 <= s <= 1) /\ (0 <= b <= 1) /\ (s / INR k <= b <= s) /\
        (s = 0 <-> dec = t) /\ (b = 0 <-> dec = t).
Proof. exact rates. Qed.
Print Assumptions C22_rates.
Example C22_case : forall mp a b, qam_mapping 2 = Ok mp -> In a (coded_symbols mp) -> In b (coded_symbols mp) -> a <> b ->
  cal_ser mp [[a]] [[a; b]] true = Ok [Some (1 / 2)].
Proof.
  intros mp a b Hm Ha Hb Hab. assert (Hne : coded_symbols mp <> []) by (intros E; rewrite E in Ha; destruct Ha).
  unfold cal_ser. change (signal_sync_and_adjust [[a]] [[a; b]] true) with (Ok ([[a; a]], [[a; b]])). cbn [bind fst snd].
  rewrite signal_decide_ok by assumption. cbn [bind map]. rewrite !dsym_point by assumption. unfold rowwise, count_diff. cbn [length Nat.eqb negb combine mapM bind fst snd filter].
  rewrite Csub_diag. destruct (Ceq_dec C0 C0) as [_|H]; [|congruence]. destruct (Ceq_dec (b - a)%C C0) as [H|_]; [apply Csub_eq0 in H; congruence|].
  cbn. reflexivity.
Qed.

(** C23 *)
Theorem C23_small_noise : forall k mp, (1 <= k <= 16)%nat -> lib_mapping k mp -> forall symbols sig synced tx rx N d,
  signal_sync_and_adjust symbols sig synced = Ok (tx, rx) ->
  (0 < N)%nat -> rect tx N -> rect rx N -> length tx = length rx -> over (coded_symbols mp) tx -> minimum_distance (coded_symbols mp) d ->
  Forall2 (Forall2 (fun x s => Cabs (x - s)%C < d / 2)) rx tx ->
  cal_ser mp symbols sig synced = Ok (repeat (Some 0) (length rx)) /\ cal_ber mp symbols sig synced = Ok (repeat (Some 0) (length rx)).
Proof. exact c23. Qed.
Print Assumptions C23_small_noise.
(** the noise level allowed for square QAM: any disturbance below 1/sqrt(scale) *)
Example C23_case : forall mp a x, qam_mapping 4 = Ok mp -> In a (coded_symbols mp) -> Cabs (x - a)%C < / sqrt 10 ->
  cal_ser mp [[a]] [[x]] true = Ok [Some 0].
Proof.
  intros mp a x Hm Ha Hx. assert (Hd : exists d, minimum_distance (coded_symbols mp) d /\ d = 2 / sqrt (cal_scaling_factor_qam 4)).
  { eexists. split; [exact (qam_mindist 4 ltac:(lia) mp Hm)|reflexivity]. }
  destruct Hd as (d & Hd & Ed). assert (E10 : cal_scaling_factor_qam 4 = 10) by (unfold cal_scaling_factor_qam; cbn [Nat.even]; rewrite pow_INR; cbn [INR]; lra).
  rewrite E10 in Ed. destruct (C23_small_noise 4 mp ltac:(lia) (or_introl Hm) [[a]] [[x]] true [[a]] [[x]] 1 d) as [H _]; try assumption; try lia.
  - reflexivity.
  - repeat constructor.
  - repeat constructor.
  - reflexivity.
  - repeat constructor. assumption.
  - repeat constructor. rewrite Ed. lra.
Qed.

(** C24, the method of the signal classes *)
Theorem C24_signal_evm_partial : forall mp symbols sig synced tx rx N,
  signal_sync_and_adjust symbols sig synced = Ok (tx, rx) ->
  (0 < N)%nat -> rect tx N -> rect rx N -> length tx = length rx ->
  exists evm, cal_evm mp symbols sig synced false = Ok (map Some evm) /\ length evm = length rx /\
    forall m t r, nth_error tx m = Some t -> nth_error rx m = Some r ->
      exists e, nth_error evm m = Some e /\ 0 <= e /\ e ^ 2 = distance2 t r /\ (e = 0 <-> r = t).
Proof. exact c24_aided. Qed.
Print Assumptions C24_signal_evm_partial.
Theorem C24_blind_partial : forall k mp symbols sig synced tx rx N, (1 <= k)%nat -> lib_mapping k mp ->
  signal_sync_and_adjust symbols sig synced = Ok (tx, rx) ->
  (0 < N)%nat -> rect tx N -> rect rx N -> length tx = length rx -> over (coded_symbols mp) tx ->
  exists blind, cal_evm mp symbols rx synced true = Ok (map Some blind) /\ length blind = length rx /\
    forall aided, cal_evm mp symbols sig synced false = Ok (map Some aided) ->
    forall m b e, nth_error blind m = Some b -> nth_error aided m = Some e -> b <= e.
Proof. exact c24_blind. Qed.
Print Assumptions C24_blind_partial.
(** core.signal_quality.cal_evm normalises both signals: a QPSK signal of twice the size has EVM 0 *)
Theorem C24_scaled_refuted : core_evm [(2, 2)] 2 (Some [(1, 1)]) = Some 0.
Proof. exact core_evm_scale. Qed.
Print Assumptions C24_scaled_refuted.
(** and one received 16-QAM corner point, equal to the reference: EVM 0, blind EVM above 0 *)
Theorem C24_blind_refuted : exists e, core_evm [(3, 3)] 4 (Some [(3, 3)]) = Some 0 /\ core_evm [(3, 3)] 4 None = Some e /\ 0 < e.
Proof. exact core_evm_blind_above. Qed.
Print Assumptions C24_blind_refuted.
Example C24_case : forall mp, exists e, cal_evm mp [[C1]] [[C1; Ci]] true false = Ok [Some e] /\ e ^ 2 = 1.
Proof.
  intros mp. destruct (C24_signal_evm_partial mp [[C1]] [[C1; Ci]] true [[C1; C1]] [[C1; Ci]] 2) as (evm & E & L & H); try reflexivity; try lia.
  - repeat constructor.
  - repeat constructor.
  - destruct (H 0%nat _ _ eq_refl eq_refl) as (e & He & _ & Hd & _). destruct evm as [|e' [|? ?]]; try discriminate. injection He as ->. exists e. split; [exact E|].
    rewrite Hd. unfold distance2, Rmean, Cnorm2, Csub, C1, Ci. cbn. lra.
Qed.

(** C25: false if a symbol of the alphabet does not occur in the reference *)
Theorem C25_estimate_partial : forall rx tx alphabet, (0 < length rx)%nat -> length rx = length tx -> NoDup alphabet ->
  (forall t, In t tx <-> In t alphabet) ->
  exists ps pn, estimate_snr rx tx alphabet = Some (ps, pn) /\ 0 <= ps /\ 0 <= pn /\ ps + pn = power rx /\
    (pn = 0 <-> forall i j t ri rj, nth_error tx i = Some t -> nth_error tx j = Some t -> nth_error rx i = Some ri -> nth_error rx j = Some rj -> ri = rj).
Proof. exact c25. Qed.
Print Assumptions C25_estimate_partial.
Theorem C25_signal_partial : forall k mp symbols sig synced tx rx N, (1 <= k)%nat -> lib_mapping k mp ->
  signal_sync_and_adjust symbols sig synced = Ok (tx, rx) ->
  (0 < N)%nat -> rect tx N -> rect rx N -> length tx = length sig -> length rx = length sig ->
  (forall m t, nth_error tx m = Some t -> forall s, In s t <-> In s (coded_symbols mp)) ->
  exists res, est_snr mp symbols sig synced = Ok (map Some res) /\ length res = length sig /\
    forall m t r, nth_error tx m = Some t -> nth_error rx m = Some r ->
      exists ps pn, nth_error res m = Some (ps, pn) /\ 0 <= ps /\ 0 <= pn /\ ps + pn = power r /\
      (pn = 0 <-> forall i j s ri rj, nth_error t i = Some s -> nth_error t j = Some s -> nth_error r i = Some ri -> nth_error r j = Some rj -> ri = rj).
Proof. exact c25_signal. Qed.
Print Assumptions C25_signal_partial.
(** no number: the mean over the empty selection *)
Theorem C25_unused_symbol_refuted : forall rx tx alphabet a, length rx = length tx -> In a alphabet -> ~ In a tx -> estimate_snr rx tx alphabet = None.
Proof. exact c25_unused. Qed.
Print Assumptions C25_unused_symbol_refuted.
Example C25_case : exists ps pn, estimate_snr [C1; Ci; (3, 0)] [C1; Ci; C1] [C1; Ci] = Some (ps, pn) /\ ps + pn = 11 / 3 /\ pn <> 0.
Proof.
  destruct (C25_estimate_partial [C1; Ci; (3, 0)] [C1; Ci; C1] [C1; Ci]) as (ps & pn & E & _ & _ & Hs & Hn).
  - cbn; lia.
  - reflexivity.
  - repeat constructor; [intros [H|[]]; unfold C1, Ci in H; injection H; intros; lra|intros []].
  - intros t. cbn [In]. tauto.
  - exists ps, pn. split; [exact E|]. split.
    + rewrite Hs. unfold power, Rmean, Cnorm2, C1, Ci. cbn. lra.
    + intros H0. apply Hn with (i := 0%nat) (j := 2%nat) (t := C1) (ri := C1) (rj := (3, 0)) in H0; try reflexivity. unfold C1 in H0. injection H0. lra.
Qed.

(** C26 *)
Theorem C26_gmi : forall mp k symbols sig synced snr minmax res, (1 <= k)%nat -> cal_gmi mp k symbols sig synced snr minmax = Ok res ->
  length res = length sig /\ forall m g, nth_error res m = Some (Some g) -> length g = k /\ Forall (fun x => x < 1) g /\ Rsum g < INR k.
Proof. exact c26_gmi. Qed.
Print Assumptions C26_gmi.
(** with the SNR given, a number comes out for every mode *)
Theorem C26_gmi_defined : forall k mp symbols sig synced snr minmax tx rx N, (1 <= k <= 16)%nat -> lib_mapping k mp ->
  signal_sync_and_adjust symbols sig synced = Ok (tx, rx) ->
  (0 < N)%nat -> rect tx N -> rect rx N -> length tx = length sig -> length rx = length sig -> (length snr = length sig \/ length snr = 1%nat) ->
  exists res, cal_gmi mp k symbols sig synced (Some snr) minmax = Ok (map Some res).
Proof. exact c26_total. Qed.
Print Assumptions C26_gmi_defined.
Theorem C26_mi : forall k mp symbols sig synced snr fast tx rx res, (1 <= k)%nat -> lib_mapping k mp ->
  signal_sync_and_adjust symbols sig synced = Ok (tx, rx) -> over (coded_symbols mp) tx -> cal_mi mp symbols sig synced snr fast = Ok res ->
  length res = length sig /\ forall m v, nth_error res m = Some (Some v) -> v <= INR k.
Proof. exact c26_mi. Qed.
Print Assumptions C26_mi.
Theorem C26_mi_defined : forall k mp symbols sig synced snr fast tx rx N, (1 <= k)%nat -> lib_mapping k mp ->
  signal_sync_and_adjust symbols sig synced = Ok (tx, rx) ->
  (0 < N)%nat -> rect tx N -> rect rx N -> length tx = length sig -> length rx = length sig -> (length snr = length sig \/ length snr = 1%nat) ->
  exists res, cal_mi mp symbols sig synced (Some snr) fast = Ok (map Some res).
Proof. exact c26_mi_total. Qed.
Print Assumptions C26_mi_defined.
(** the Monte Carlo versions: any alphabet and noise *)
Theorem C26_mi_mc : forall noise alphabet N0 v, cal_mi_mc noise alphabet N0 = Some v -> v <= log2 (INR (length alphabet)).
Proof. exact mi_mc_bound. Qed.
Print Assumptions C26_mi_mc.
Theorem C26_gmi_mc : forall k mp snr z, (1 <= k)%nat -> lib_mapping k mp -> z <> [] ->
  exists v, cal_gmi_mc (coded_symbols mp) k snr z (bitmap_mtx mp) = Ok v /\ v <= INR k.
Proof. exact c26_gmi_mc. Qed.
Print Assumptions C26_gmi_mc.
Example C26_case : forall mp a b x y, qam_mapping 2 = Ok mp ->
  exists g, cal_gmi mp 2 [[a; b]] [[x; y]] true (Some [10]) false = Ok [Some g] /\ Rsum g < 2.
Proof.
  intros mp a b x y Hm. destruct (C26_gmi_defined 2 mp [[a; b]] [[x; y]] true [10] false [[a; b]] [[x; y]] 2) as (res & E); try reflexivity; try lia.
  - now left.
  - repeat constructor.
  - repeat constructor.
  - now left.
  - destruct (C26_gmi mp 2 [[a; b]] [[x; y]] true (Some [10]) false (map Some res)) as [HL HB]; [lia|exact E|].
    destruct res as [|g [|? ?]]; try discriminate. exists g. split; [exact E|]. destruct (HB 0%nat g eq_refl) as (_ & _ & H). cbn [INR] in H. lra.
Qed.

(** C27 *)
Theorem C27_soft_demapper : forall k mp rx snr, (1 <= k)%nat -> lib_mapping k mp -> 0 < snr ->
  (forall x s, In x rx -> In s (coded_symbols mp) -> Cabs (x - s)%C ^ 2 < 10000) ->
  exists lmm lex, soft_l_value_demapper true rx k snr (bitmap_mtx mp) = Ok lmm /\ soft_l_value_demapper false rx k snr (bitmap_mtx mp) = Ok lex /\
    length lmm = length rx /\ length lex = length rx /\
    forall j x b, nth_error rx j = Some x -> (b < k)%nat ->
    exists row row' v v', nth_error lmm j = Some row /\ nth_error lex j = Some row' /\ length row = k /\ length row' = k /\
      nth_error row b = Some v /\ nth_error row' b = Some v' /\
      Rabs (v' - v) <= ln (INR (2 ^ k) / 2) /\
      forall i s, nth_error (coded_symbols mp) i = Some s -> nearest (coded_symbols mp) x s ->
        (if label_bit k b i then 0 <= v else v <= 0) /\
        ((forall i' t, nth_error (coded_symbols mp) i' = Some t -> nearest (coded_symbols mp) x t -> label_bit k b i' = label_bit k b i) ->
         if label_bit k b i then 0 < v else v < 0).
Proof. exact c27. Qed.
Print Assumptions C27_soft_demapper.
(** BPSK (k = 1): exact and min-max values agree *)
Example C27_case : forall mp x snr, psk_mapping 1 = Ok mp -> 0 < snr -> (forall s, In s (coded_symbols mp) -> Cabs (x - s)%C ^ 2 < 10000) ->
  exists v, soft_l_value_demapper true [x] 1 snr (bitmap_mtx mp) = Ok [[v]] /\ soft_l_value_demapper false [x] 1 snr (bitmap_mtx mp) = Ok [[v]].
Proof.
  intros mp x snr Hm Hs Hd. destruct (C27_soft_demapper 1 mp [x] snr) as (lmm & lex & E1 & E2 & L1 & L2 & H); try assumption; try lia.
  - now right.
  - intros y s [<-|[]]. apply Hd.
  - destruct (H 0%nat x 0%nat eq_refl ltac:(lia)) as (row & row' & v & v' & R1 & R2 & M1 & M2 & V1 & V2 & B & _).
    destruct lmm as [|a [|? ?]]; try discriminate. destruct lex as [|b [|? ?]]; try discriminate. cbn in R1, R2. injection R1 as ->. injection R2 as ->.
    destruct row as [|w [|? ?]]; try discriminate. destruct row' as [|w' [|? ?]]; try discriminate. cbn in V1, V2. injection V1 as ->. injection V2 as ->.
    replace (INR (2 ^ 1) / 2) with 1 in B by (cbn; lra). rewrite ln_1 in B. assert (v' = v) by (unfold Rabs in B; destruct (Rcase_abs (v' - v)); lra). subst. exists v. split; assumption.
Qed.
