(** Viterbi-Viterbi phase recovery and the pilot-based frequency offset. *)
From Coq Require Import String List Arith ZArith Bool Lia Reals Lra.
From Verif Require Import Common.Py Common.ListX Common.Cplx Common.SumX Common.Angle Model.Windows Model.Quality
  Model.Sync Model.Pilots Model.Phase Spec.Seq Spec.Equal Spec.Win Spec.PhaseSpec Proofs.WindowsP Proofs.PhaseP Proofs.PhaseQ.
Import ListNotations.
Local Open Scope R_scope.

Lemma Cpow_expi t M : Cpow (Cexpi t) M = Cexpi (INR M * t).
Proof.
  induction M as [|M IH]; [cbn [Cpow INR]; rewrite Rmult_0_l, Cexpi_0; reflexivity|].
  cbn [Cpow]. rewrite IH, <- Cexpi_add, S_INR. f_equal. ring.
Qed.

(** sum of a geometric series on the unit circle *)
Lemma geom_sum x N : Cscal (sin (x / 2)) (csum N (fun j => Cexpi (x * INR j))) =
  Cscal (sin (INR N * (x / 2))) (Cexpi ((INR N - 1) * (x / 2))).
Proof.
  induction N as [|N IH].
  - rewrite csum_0. cbn [INR]. rewrite Rmult_0_l, sin_0. cring.
  - rewrite csum_S.
    assert (Hd : forall a (u v : C), Cscal a (u + v)%C = (Cscal a u + Cscal a v)%C) by (intros; cring).
    rewrite Hd, IH, S_INR. set (a := x / 2).
    replace (x * INR N) with (INR N * a + INR N * a) by (unfold a; field).
    replace ((INR N - 1) * a) with (INR N * a + - a) by ring.
    replace ((INR N + 1 - 1) * a) with (INR N * a) by ring.
    replace ((INR N + 1) * a) with (INR N * a + a) by ring.
    rewrite !Cexpi_add, sin_plus. generalize (INR N * a). intros b. unfold Cexpi. rewrite cos_neg, sin_neg.
    apply C_eq; unfold Cadd, Cmul, Cscal; cbn [fst snd].
    + pose proof (sin2_cos2 b) as Hb. unfold Rsqr in Hb. nra.
    + ring.
Qed.
Lemma geom_pos x N : (1 <= N)%nat -> Rabs x * INR N < 2 * PI ->
  exists d, 0 < d /\ csum N (fun j => Cexpi (x * INR j)) = Cscal d (Cexpi ((INR N - 1) * (x / 2))).
Proof.
  intros HN Hx. pose proof PI_RGT_0 as Hpi. assert (HN1 : 1 <= INR N) by (apply (le_INR 1); exact HN).
  destruct (Req_dec x 0) as [->|Hne].
  - exists (INR N). split; [lra|]. rewrite (csum_ext N _ (fun _ => C1)).
    + rewrite csum_const. replace ((INR N - 1) * (0 / 2)) with 0 by field. rewrite Cexpi_0. reflexivity.
    + intros i _. rewrite Rmult_0_l. apply Cexpi_0.
  - assert (Hbig : 0 < sin (INR N * (x / 2)) / sin (x / 2)).
    { pose proof (Rabs_pos_lt x Hne) as Hax. assert (Rabs x <= Rabs x * INR N) by nra.
      destruct (Rle_lt_dec 0 x) as [Hs|Hs].
      - rewrite Rabs_right in * by lra. apply Rdiv_lt_0_compat; apply sin_gt_0; nra.
      - rewrite Rabs_left in * by lra.
        replace (sin (INR N * (x / 2)) / sin (x / 2)) with ((- sin (INR N * (x / 2))) / (- sin (x / 2))).
        + rewrite <- !sin_neg. apply Rdiv_lt_0_compat; apply sin_gt_0; nra.
        + assert (sin (x / 2) <> 0).
          { assert (0 < sin (- (x / 2))) by (apply sin_gt_0; nra). rewrite sin_neg in *. lra. }
          field. assumption. }
    assert (Hs0 : sin (x / 2) <> 0).
    { intros E. rewrite E in Hbig. unfold Rdiv in Hbig. rewrite Rinv_0, Rmult_0_r in Hbig. lra. }
    exists (sin (INR N * (x / 2)) / sin (x / 2)). split; [exact Hbig|].
    pose proof (geom_sum x N) as Hg. set (S := csum N _) in *. clearbody S.
    replace (Cscal (sin (INR N * (x / 2)) / sin (x / 2)) (Cexpi ((INR N - 1) * (x / 2)))) with
      (Cscal (/ sin (x / 2)) (Cscal (sin (INR N * (x / 2))) (Cexpi ((INR N - 1) * (x / 2))))) by (unfold Rdiv; cring).
    rewrite <- Hg. apply C_eq; unfold Cscal; cbn [fst snd]; field; assumption.
Qed.

Lemma slice_assign_nat {A} a b (v l : list A) : (a <= b)%nat -> (b <= length l)%nat -> length v = (b - a)%nat ->
  slice_assign (Z.of_nat a) (Z.of_nat b) v l = Ok (firstn a l ++ v ++ skipn b l).
Proof.
  intros H1 H2 H3. unfold slice_assign. cbv zeta. rewrite !clipz_pos by lia. rewrite !Nat2Z.id. unfold bcast.
  destruct (Nat.eqb_spec (length v) (b - a)) as [_|]; [|lia]. cbn [bind]. replace (Nat.max a b) with b by lia. reflexivity.
Qed.

Section VV.
Variables (L N M : nat) (r phi : nat -> R) (theta0 om : R) (row : list C).
Hypothesis (HN : (1 <= N <= L)%nat).
Hypothesis (HM : (1 <= M)%nat).
Hypothesis (Hr : forall n, (n < L)%nat -> 0 < r n).
Hypothesis (Hphi : forall n, (n < L)%nat -> turns (INR M * phi n - PI)).
Hypothesis (Hrow : polar_row L r phi theta0 om row).
Hypothesis (Hw1 : Rabs (INR M * om) * INR N < 2 * PI).
Hypothesis (Hw2 : Rabs (INR M * om) < PI).

Let g (i : nat) := INR M * (theta0 + om * INR i) + PI.
Lemma vv_raised : map (fun e => Cpow (Cexpi (Carg e)) M) row = map (fun i => Cexpi (g i)) (seq 0 L).
Proof.
  destruct Hrow as [Hl Hn]. apply nth_error_ext_lt; [rewrite !map_length, seq_length; exact Hl|].
  intros i Hi. rewrite map_length, Hl in Hi. rewrite nth_error_map, (Hn i Hi), nth_error_map_seq by exact Hi. cbn [option_map].
  f_equal. rewrite Cpow_expi. apply Cexpi_turns.
  destruct (Carg_scal_expi (r i) (phi i + (theta0 + om * INR i)) (Hr i Hi)) as [k Hk].
  destruct (Hphi i Hi) as [j Hj]. exists (Z.of_nat M * k + j)%Z. rewrite Nat.add_0_l. unfold g.
  rewrite plus_IZR, mult_IZR, <- INR_IZR_INZ.
  set (c := Carg _) in *. replace c with (phi i + (theta0 + om * INR i) + IZR k * (2 * PI)) by lra.
  rewrite Rmult_plus_distr_l, Rmult_plus_distr_l. lra.
Qed.
Let est (i : nat) := theta0 + om * INR i + om * ((INR N - 1) / 2).
Lemma vv_est : exists z : Z, vv_phase row N M = Ok (frow (L - N + 1) (fun i => est i + IZR z * (2 * PI) / INR M)).
Proof.
  destruct HN as [HN1 HN2]. unfold vv_phase. rewrite vv_raised.
  assert (HMR : 0 < INR M) by (apply lt_0_INR; lia).
  set (a := map (fun i => Cexpi (g i)) (seq 0 L)).
  assert (Hal : length a = L) by (unfold a; rewrite map_length, seq_length; reflexivity).
  destruct (seg_cut a N (N - 1)%nat C0 ltac:(lia) ltac:(lia)) as (fr & Hfr & Hfl & Hfn).
  replace (Z.of_nat N - 1)%Z with (Z.of_nat (N - 1)) by lia. rewrite Hfr. cbn [bind].
  assert (Hcut : n_cut (length a) N (N - (N - 1)) = (L - N + 1)%nat).
  { unfold n_cut. rewrite Hal. replace (N - (N - 1))%nat with 1%nat by lia. rewrite Nat.div_1_r. lia. }
  rewrite Hcut in *.
  assert (Hang : map (fun w => Carg (Csum w)) fr = frow (L - N + 1) (fun i => Carg (csum N (fun j => Cexpi (g (i + j)%nat))))).
  { apply nth_error_ext_lt; [rewrite map_length, frow_length; exact Hfl|]. intros i Hi. rewrite map_length, Hfl in Hi.
    rewrite nth_error_map, frow_nth by exact Hi. destruct (Hfn i Hi) as (w & Hw & Hwl & Hwn). rewrite Hw. cbn [option_map].
    do 2 f_equal. unfold csum. apply f_equal. apply nth_error_ext_lt; [rewrite map_length, seq_length; exact Hwl|].
    intros j Hj. rewrite Hwl in Hj. destruct (Hwn j Hj) as [-> _]. rewrite nth_error_map_seq by exact Hj.
    unfold a. rewrite nth_error_map_seq by (replace (N - (N - 1))%nat with 1%nat by lia; lia).
    do 3 f_equal. replace (N - (N - 1))%nat with 1%nat by lia. lia. }
  rewrite Hang.
  assert (Ht : forall i, (i < L - N + 1)%nat -> turns (Carg (csum N (fun j => Cexpi (g (i + j)%nat))) - (INR M * est i + PI))).
  { intros i Hi. destruct (geom_pos (INR M * om) N HN1 Hw1) as (d & Hd & Hs).
    assert (He : csum N (fun j => Cexpi (g (i + j)%nat)) = Cscal d (Cexpi (INR M * est i + PI))).
    { rewrite (csum_ext N _ (fun j => (Cexpi (g i) * Cexpi (INR M * om * INR j))%C)).
      - rewrite csum_scal, Hs. 
        replace (INR M * est i + PI) with (g i + (INR N - 1) * (INR M * om / 2)) by (unfold est, g; field).
        rewrite Cexpi_add. cring.
      - intros j _. rewrite <- Cexpi_add. f_equal. unfold g. rewrite plus_INR. ring. }
    rewrite He. apply Carg_scal_expi. exact Hd. }
  rewrite (unwrap_tracks _ (fun i => INR M * est i + PI) (L - N + 1)%nat ltac:(lia) Ht).
  2:{ intros q _. unfold est. rewrite S_INR.
      match goal with |- Rabs ?e < _ => replace e with (INR M * om) by ring end. exact Hw2. }
  destruct (Ht 0%nat ltac:(lia)) as [z Hz]. exists z. apply f_equal. unfold frow. rewrite map_map. apply map_ext.
  intros i. rewrite Hz. field. lra.
Qed.
Lemma vv_row_ok : exists out pe (z : Z), vv_row row N M = Ok (out, pe) /\ length out = L /\
  pe = frow (L - N + 1) (fun i => est i + IZR z * (2 * PI) / INR M) /\
  forall n, (n < L)%nat -> nth_error out n =
    Some (if ((N - 1) / 2 <=? n) && (n + N / 2 <? L) then
            Cscal (r n) (Cexpi (phi n + (om * (INR ((N - 1) / 2) - (INR N - 1) / 2) - IZR z * (2 * PI) / INR M)))
          else C0)%nat.
Proof.
  destruct HN as [HN1 HN2]. destruct Hrow as [Hl Hn]. destruct vv_est as [z Hz]. unfold vv_row. rewrite Hz. cbn [bind].
  set (pe := frow (L - N + 1) (fun i => est i + IZR z * (2 * PI) / INR M)).
  assert (Hpel : length pe = (L - N + 1)%nat) by apply frow_length.
  set (lo := ((N - 1) / 2)%nat). set (hi := (L - N / 2)%nat).
  assert (Hdiv : (lo + N / 2 = N - 1)%nat /\ (N / 2 <= N - 1 + 1 - lo)%nat /\ (2 * lo <= N - 1)%nat).
  { unfold lo. pose proof (Nat.div_mod N 2 ltac:(lia)). pose proof (Nat.mod_upper_bound N 2 ltac:(lia)).
    pose proof (Nat.div_mod (N - 1) 2 ltac:(lia)). pose proof (Nat.mod_upper_bound (N - 1) 2 ltac:(lia)). lia. }
  rewrite Hl.
  assert (Hlo : (if Nat.odd N then ((Z.of_nat N - 1) / 2)%Z else (Z.of_nat N / 2 - 1)%Z) = Z.of_nat lo).
  { unfold lo. rewrite Nat2Z.inj_div. destruct (Nat.odd N) eqn:Eo.
    - f_equal. lia.
    - assert (Hev : Nat.even N = true) by (unfold Nat.odd in Eo; destruct (Nat.even N); [reflexivity|discriminate]).
      apply Nat.even_spec in Hev as [h Hh]. clear Hz Hdiv. 
      replace (Z.of_nat N) with (Z.of_nat h * 2)%Z by lia. rewrite Z.div_mul by lia.
      replace (Z.of_nat (N - 1)) with (1 + (Z.of_nat h - 1) * 2)%Z by lia. rewrite Z.div_add by lia. reflexivity. }
  assert (Hhi : (if Nat.odd N then (Z.of_nat L - (Z.of_nat N - 1) / 2)%Z else (Z.of_nat L - Z.of_nat N / 2)%Z) = Z.of_nat hi).
  { unfold hi. pose proof (Nat.div_le_upper_bound N 2 N ltac:(lia) ltac:(lia)).
    rewrite Nat2Z.inj_sub, Nat2Z.inj_div by lia. destruct (Nat.odd N) eqn:Eo; [|reflexivity].
    apply Nat.odd_spec in Eo as [h Hh]. clear Hz Hdiv. f_equal.
    replace (Z.of_nat N) with (1 + Z.of_nat h * 2)%Z by lia. change (Z.of_nat 2) with 2%Z. rewrite Z.div_add by lia.
    replace (1 + Z.of_nat h * 2 - 1)%Z with (Z.of_nat h * 2)%Z by lia. rewrite Z.div_mul by lia. reflexivity. }
  rewrite Hlo, Hhi. rewrite pyslice_nat by (unfold hi; lia).
  destruct (rotate_row_ok (firstn (hi - lo) (skipn lo row)) (map Ropp pe)) as [mid Hmid].
  { rewrite firstn_length, skipn_length, map_length, Hpel. unfold hi. lia. }
  rewrite Hmid. cbn [bind]. apply rotate_row_spec in Hmid as (M1 & M2 & M3).
  assert (Hml : length mid = (hi - lo)%nat) by (rewrite M2, firstn_length, skipn_length; unfold hi; lia).
  rewrite slice_assign_nat; [|unfold hi; lia|rewrite repeat_length; unfold hi; lia|exact Hml].
  cbn [bind]. eexists. exists pe, z. split; [reflexivity|]. split.
  { rewrite !app_length, firstn_length, skipn_length, repeat_length, Hml. unfold hi. lia. }
  split; [reflexivity|]. intros n Hnl.
  assert (Hf : length (firstn lo (repeat C0 L)) = lo) by (rewrite firstn_length, repeat_length; lia).
  destruct (Nat.leb_spec lo n) as [Ha|Ha]; cbn [andb].
  - rewrite nth_error_app2 by lia. rewrite Hf. destruct (Nat.ltb_spec (n + N / 2) L) as [Hb|Hb].
    + rewrite nth_error_app1 by (rewrite Hml; unfold hi; lia).
      rewrite (M3 (n - lo)%nat (Cscal (r n) (Cexpi (phi n + (theta0 + om * INR n)))) (- (est (n - lo)%nat + IZR z * (2 * PI) / INR M))).
      * apply f_equal.
        assert (Hc : forall a t u, (Cscal a (Cexpi t) * Cexpi u)%C = Cscal a (Cexpi (t + u))) by (intros; rewrite Cexpi_add; cring).
        rewrite Hc. do 2 f_equal. unfold est. rewrite minus_INR by lia. ring.
      * rewrite nth_error_firstn_lt by (unfold hi; lia). rewrite nth_error_skipn'. replace (lo + (n - lo))%nat with n by lia. apply Hn. exact Hnl.
      * rewrite nth_error_map. unfold pe. rewrite frow_nth by lia. reflexivity.
    + rewrite nth_error_app2 by (rewrite Hml; unfold hi; lia). rewrite nth_error_skipn'. apply nth_error_repeat_lt. rewrite Hml. unfold hi. lia.
  - rewrite nth_error_app1 by lia. rewrite nth_error_firstn_lt by lia. apply nth_error_repeat_lt. lia.
Qed.
End VV.

Lemma half_even N : (1 <= N)%nat -> INR ((N - 1) / 2) - (INR N - 1) / 2 = if Nat.even N then - (1 / 2) else 0.
Proof.
  intros H. destruct (Nat.even N) eqn:E.
  - apply Nat.even_spec in E as [h ->]. replace (2 * h - 1)%nat with (1 + (h - 1) * 2)%nat by lia. rewrite Nat.div_add by lia.
    cbn [Nat.div Nat.divmod fst Nat.add]. rewrite minus_INR, mult_INR by lia. cbn [INR]. field.
  - assert (Ho : Nat.odd N = true) by (unfold Nat.odd; rewrite E; reflexivity). apply Nat.odd_spec in Ho as [h ->].
    replace (2 * h + 1 - 1)%nat with (h * 2)%nat by lia. rewrite Nat.div_mul by lia. rewrite plus_INR, mult_INR. cbn [INR]. field.
Qed.

Lemma vv_modes E N M (r phi : nat -> nat -> R) (theta0 om : nat -> R) : (1 <= N)%nat -> (1 <= M)%nat ->
  (forall k row, nth_error E k = Some row -> (N <= length row)%nat /\
     polar_row (length row) (r k) (phi k) (theta0 k) (om k) row /\
     (forall n, (n < length row)%nat -> 0 < r k n /\ turns (INR M * phi k n - PI)) /\
     Rabs (INR M * om k) * INR N < 2 * PI /\ Rabs (INR M * om k) < PI) ->
  exists out pe, viterbiviterbi E N M = Ok (out, pe) /\ length out = length E /\
    forall k row, nth_error E k = Some row -> exists row' (z : Z), nth_error out k = Some row' /\ length row' = length row /\
      forall n, (n < length row)%nat -> nth_error row' n =
        Some (if ((N - 1) / 2 <=? n) && (n + N / 2 <? length row) then
                Cscal (r k n) (Cexpi (phi k n + ((if Nat.even N then - (om k / 2) else 0) - IZR z * (2 * PI) / INR M)))
              else C0)%nat.
Proof.
  intros HN HM H. unfold viterbiviterbi.
  assert (Hg : exists res, mapM (fun row => vv_row row N M) E = Ok res /\ length res = length E /\
    forall k row, nth_error E k = Some row -> exists row' pe (z : Z), nth_error res k = Some (row', pe) /\ length row' = length row /\
      forall n, (n < length row)%nat -> nth_error row' n =
        Some (if ((N - 1) / 2 <=? n) && (n + N / 2 <? length row) then
                Cscal (r k n) (Cexpi (phi k n + ((if Nat.even N then - (om k / 2) else 0) - IZR z * (2 * PI) / INR M)))
              else C0)%nat).
  { revert r phi theta0 om H. induction E as [|row E IH]; intros r phi theta0 om H.
    - exists []. split; [reflexivity|]. split; [reflexivity|]. intros [|k] row Hk; discriminate.
    - destruct (H 0%nat row eq_refl) as (H1 & H2 & H3 & H4 & H5).
      destruct (vv_row_ok (length row) N M (r 0%nat) (phi 0%nat) (theta0 0%nat) (om 0%nat) row ltac:(lia) HM
        (fun n Hn => proj1 (H3 n Hn)) (fun n Hn => proj2 (H3 n Hn)) H2 H4 H5) as (out & pe & z & E1 & E2 & _ & E4).
      destruct (IH (fun k => r (S k)) (fun k => phi (S k)) (fun k => theta0 (S k)) (fun k => om (S k))
        (fun k rw Hk => H (S k) rw Hk)) as (res & R1 & R2 & R3).
      exists ((out, pe) :: res). cbn [mapM]. rewrite E1. cbn [bind]. rewrite R1. split; [reflexivity|].
      split; [cbn [length]; congruence|]. intros [|k] rw Hk; cbn [nth_error] in *.
      + injection Hk as <-. exists out, pe, z. split; [reflexivity|]. split; [exact E2|]. intros n Hn. rewrite (E4 n Hn).
        rewrite half_even by exact HN. destruct (Nat.even N); [|rewrite Rmult_0_r; reflexivity].
        replace (om 0%nat * - (1 / 2)) with (- (om 0%nat / 2)) by field. reflexivity.
      + apply R3. exact Hk. }
  destruct Hg as (res & R1 & R2 & R3). rewrite R1. cbn [bind]. eexists _, _. split; [reflexivity|].
  split; [rewrite map_length; exact R2|]. intros k row Hk. destruct (R3 k row Hk) as (row' & pe & z & A1 & A2 & A3).
  exists row', z. split; [rewrite nth_error_map, A1; reflexivity|]. split; [exact A2|exact A3].
Qed.

(** ** pilot-based frequency offset *)
Lemma phase_diff_received refs rec ph : received refs rec ph ->
  exists f, phase_diff refs rec = frow (length refs) f /\ forall q, (q < length refs)%nat -> turns (f q - ph q).
Proof.
  intros [Hl H]. unfold phase_diff.
  exists (fun q => Carg (Cconj (nth q refs C0) * nth q rec C0)%C). split.
  - apply nth_error_ext_lt; [rewrite map_length, combine_length, frow_length; lia|].
    intros q Hq. rewrite map_length, combine_length in Hq. rewrite frow_nth by lia. rewrite nth_error_map.
    rewrite (combine_nth' refs rec q (nth q refs C0) (nth q rec C0)); [reflexivity| |]; apply nth_error_nth'; lia.
  - intros q Hq. pose proof (nth_error_nth' refs C0 Hq) as Hr. destruct (H q _ Hr) as (Hne & rho & Hrho & Hrec).
    rewrite (nth_error_nth _ _ C0 Hrec). set (a := nth q refs C0) in *.
    replace (Cconj a * Cscal rho (a * Cexpi (ph q)))%C with (Cscal (rho * Cnorm2 a) (Cexpi (ph q))) by cring.
    apply Carg_scal_expi. apply Rmult_lt_0_compat; [exact Hrho|]. rewrite <- Cabs_sqr.
    pose proof (Cabs_pos a Hne). nra.
Qed.
Lemma sum_k n : 2 * rsum n INR = INR n * (INR n - 1).
Proof. induction n as [|n IH]; [rewrite rsum_0; cbn [INR]; ring|]. rewrite rsum_S, S_INR. lra. Qed.
Lemma sum_k2 n : 6 * rsum n (fun k => INR k * INR k) = (INR n - 1) * INR n * (2 * INR n - 1).
Proof. induction n as [|n IH]; [rewrite rsum_0; cbn [INR]; ring|]. rewrite rsum_S, S_INR. lra. Qed.
Lemma polyfit_line n a b : (2 <= n)%nat -> polyfit1 (frow n (fun k => a + b * INR k)) = Some (b, a).
Proof.
  intros Hn. unfold polyfit1. rewrite frow_length. destruct (Nat.ltb_spec n 2) as [|_]; [lia|].
  assert (Hsxy : Rsum (map (fun p => INR (fst p) * snd p) (combine (seq 0 n) (frow n (fun k => a + b * INR k)))) =
    rsum n (fun k => INR k * (a + b * INR k))).
  { unfold frow. rewrite <- (map_id (seq 0 n)) at 1. rewrite combine_map_seq, map_map. reflexivity. }
  rewrite Hsxy. cbv zeta. change (Rsum (map INR (seq 0 n))) with (rsum n INR).
  change (Rsum (map (fun k => INR k * INR k) (seq 0 n))) with (rsum n (fun k => INR k * INR k)).
  change (Rsum (frow n (fun k => a + b * INR k))) with (rsum n (fun k => a + b * INR k)).
  rewrite (rsum_ext n (fun k => INR k * (a + b * INR k)) (fun k => a * INR k + b * (INR k * INR k))) by (intros; ring).
  rewrite (rsum_add n (fun k => a * INR k)), rsum_scal, (rsum_scal n b (fun k => INR k * INR k)).
  rewrite (rsum_add n (fun _ => a)), rsum_const, rsum_scal.
  pose proof (sum_k n) as H1. pose proof (sum_k2 n) as H2.
  set (s1 := rsum n INR) in *. set (s2 := rsum n (fun k => INR k * INR k)) in *. clearbody s1 s2.
  assert (HnR : 2 <= INR n) by (apply (le_INR 2); exact Hn). set (x := INR n) in *. clearbody x.
  assert (Hs1 : s1 = x * (x - 1) / 2) by lra. assert (Hs2 : s2 = (x - 1) * x * (2 * x - 1) / 6) by lra.
  assert (Hden : x * s2 - s1 * s1 = x * x * ((x - 1) * (x + 1)) / 12) by (rewrite Hs1, Hs2; field).
  assert (Hpos : x * s2 - s1 * s1 <> 0).
  { rewrite Hden. assert (0 < x * x * ((x - 1) * (x + 1))) by (apply Rmult_lt_0_compat; nra). lra. }
  assert (Hb : (x * (a * s1 + b * s2) - s1 * (x * a + b * s1)) / (x * s2 - s1 * s1) = b) by (field; exact Hpos).
  rewrite Hb. do 2 f_equal. field. lra.
Qed.
Lemma all_some_map {A B} (f : A -> B) l : all_some (map (fun a => Some (f a)) l) = Some (map f l).
Proof. induction l as [|a l IH]; [reflexivity|]. cbn [map all_some]. rewrite IH. reflexivity. Qed.

Lemma foe_ok rec pilots (theta f : nat -> R) : length rec = length pilots ->
  (forall l rc rf, nth_error rec l = Some rc -> nth_error pilots l = Some rf ->
     (2 <= length rf)%nat /\ Rabs (f l) < / 2 /\ received rf rc (fun n => theta l + 2 * PI * f l * INR n)) ->
  exists icpt, pilot_based_foe rec pilots =
    Ok (Some (Rmean (map f (seq 0 (length rec))), map f (seq 0 (length rec)), icpt)) /\
    length icpt = length rec /\ forall l c, nth_error icpt l = Some c -> turns (c - theta l).
Proof.
  intros Hl H. pose proof PI_RGT_0 as Hpi. unfold pilot_based_foe.
  assert (Hrow : forall l, (l < length rec)%nat -> exists c, turns (c - theta l) /\
    polyfit1 (unwrap (phase_diff (nth l pilots []) (nth l rec []))) = Some (2 * PI * f l, c) /\
    length (nth l pilots []) = length (nth l rec [])).
  { intros l Hlt. pose proof (nth_error_nth' rec [] Hlt) as H1. pose proof (nth_error_nth' pilots [] ltac:(rewrite <- Hl; exact Hlt)) as H2.
    destruct (H l _ _ H1 H2) as (Hlen & Hf & Hrec).
    destruct (phase_diff_received _ _ _ Hrec) as (g & Hg & Ht). rewrite Hg.
    rewrite (unwrap_tracks g (fun n => theta l + 2 * PI * f l * INR n) (length (nth l pilots [])) ltac:(lia) Ht).
    - exists (theta l + (g 0%nat - theta l)). split; [|split].
      + specialize (Ht 0%nat ltac:(lia)). cbn [INR] in Ht. rewrite Rmult_0_r, Rplus_0_r in Ht.
        replace (theta l + (g 0%nat - theta l) - theta l) with (g 0%nat - theta l) by ring. exact Ht.
      + rewrite <- (polyfit_line (length (nth l pilots [])) (theta l + (g 0%nat - theta l)) (2 * PI * f l) Hlen).
        apply f_equal. apply frow_ext. intros k _. cbn [INR]. ring.
      + symmetry. exact (proj1 Hrec).
    - intros q _. rewrite S_INR.
      match goal with |- Rabs ?e < _ => replace e with (2 * PI * f l) by ring end.
      rewrite Rabs_mult, (Rabs_right (2 * PI)) by lra.
      pose proof (Rmult_lt_compat_l (2 * PI) _ _ ltac:(lra) Hf). lra. }
  assert (Hc : exists c : nat -> R, forall l, (l < length rec)%nat -> turns (c l - theta l) /\
    polyfit1 (unwrap (phase_diff (nth l pilots []) (nth l rec []))) = Some (2 * PI * f l, c l) /\
    length (nth l pilots []) = length (nth l rec [])).
  { exists (fun l => match polyfit1 (unwrap (phase_diff (nth l pilots []) (nth l rec []))) with Some (_, c) => c | None => 0 end).
    intros l Hlt. destruct (Hrow l Hlt) as (c & C1 & C2 & C3). rewrite C2. split; [exact C1|]. split; [reflexivity|exact C3]. }
  destruct Hc as [c Hc].
  assert (Hm : mapM (fun l => let! rf := getn pilots l in let! rc := getn rec l in
                              if (length rf =? length rc)%nat then Ok (polyfit1 (unwrap (phase_diff rf rc)))
                              else Err ValueError) (seq 0 (length rec)) = Ok (map (fun l => Some (2 * PI * f l, c l)) (seq 0 (length rec)))).
  { apply mapM_ok. intros l Hin. apply in_seq in Hin. destruct (Hc l ltac:(lia)) as (C1 & C2 & C3). unfold getn.
    rewrite (nth_error_nth' pilots []) by lia. cbn [bind]. rewrite (nth_error_nth' rec []) by lia. cbn [bind].
    rewrite C3, Nat.eqb_refl, C2. reflexivity. }
  rewrite Hm. cbn [bind]. rewrite all_some_map. cbv zeta. rewrite !map_map. cbn [fst snd].
  assert (Hf : map (fun x => 2 * PI * f x / (2 * PI)) (seq 0 (length rec)) = map f (seq 0 (length rec))).
  { apply map_ext. intros l. field. lra. }
  rewrite Hf. eexists. split; [reflexivity|]. split; [rewrite map_length, seq_length; reflexivity|].
  intros l x Hx. pose proof (nth_error_Some_lt _ _ _ Hx) as Hlt. rewrite map_length, seq_length in Hlt.
  rewrite nth_error_map_seq in Hx by exact Hlt. injection Hx as <-. apply Hc. exact Hlt.
Qed.
