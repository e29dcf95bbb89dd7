From Coq Require Import List ZArith QArith Qabs Qreals Reals Lia Lra.
From Verif Require Import Common.Py Common.Cplx Common.ListX Common.Dft Model.Helpers Model.Filters Model.Fractions Model.Resample
  Spec.Closest Spec.ImpairSpec Proofs.FractionsP Proofs.ImpairR Proofs.FiltersP.
Import ListNotations.

(** ** resampling factors *)
Lemma factors_exact fold fnew u d : ~ (fold == 0)%Q -> (fnew / fold == u # d)%Q -> Z.gcd u (Zpos d) = 1%Z -> (d <= 1000000)%positive ->
  resamplingfactors fold fnew = Ok (u, Zpos d).
Proof.
  intros H0 E G L. unfold resamplingfactors. destruct (Qeq_bool fold 0) eqn:Q; [apply Qeq_bool_iff in Q; contradiction|].
  unfold fraction_of. rewrite limit_exact; rewrite (Qred_complete _ _ E), (Qred_coprime u d G); [reflexivity|exact L].
Qed.
Lemma factors_closest fold fnew : ~ (fold == 0)%Q ->
  exists u d, resamplingfactors fold fnew = Ok (u, Zpos d) /\ closest 1000000 (fnew / fold) (u # d).
Proof.
  intros H0. unfold resamplingfactors. destruct (Qeq_bool fold 0) eqn:Q; [apply Qeq_bool_iff in Q; contradiction|].
  unfold fraction_of. destruct (limit_closest 1000000 (fnew / fold)) as ([u d] & E & H). rewrite E. exists u, d. split; [reflexivity|exact H].
Qed.

(** ** zero insertion *)
Lemma flat_length (x : list C) k : length (flat_map (fun z => z :: repeat C0 k) x) = (length x * S k)%nat.
Proof. induction x as [|z x IH]; [reflexivity|]. cbn [flat_map]. rewrite app_length, IH. cbn [length]. rewrite repeat_length. lia. Qed.
Lemma nth_error_nil' {A} i : nth_error (@nil A) i = None.
Proof. destruct i; reflexivity. Qed.
Lemma flat_nth (x : list C) k : forall i r, (r <= k)%nat -> nth_error (flat_map (fun z => z :: repeat C0 k) x) (i * S k + r) =
  match nth_error x i with None => None | Some z => Some (if (r =? 0)%nat then z else C0) end.
Proof.
  induction x as [|z x IH]; intros i r H.
  - cbn [flat_map]. rewrite !nth_error_nil'. reflexivity.
  - cbn [flat_map]. destruct i as [|i].
    + cbn [Nat.mul Nat.add]. rewrite nth_error_app1 by (cbn [length]; rewrite repeat_length; lia).
      destruct r as [|r]; [reflexivity|]. cbn [nth_error Nat.eqb]. apply nth_error_repeat. lia.
    + rewrite nth_error_app2 by (cbn [length]; rewrite repeat_length; lia). cbn [length]. rewrite repeat_length.
      replace (S i * S k + r - S k)%nat with (i * S k + r)%nat by lia. exact (IH i r H).
Qed.
Lemma zero_insert_ok up x : (0 < up)%Z -> exists z, zero_insert up x = Ok z /\ length z = (length x * Z.to_nat up)%nat /\
  stride (Z.to_nat up) z = x /\ forall i r, (r < Z.to_nat up)%nat -> nth_error z (i * Z.to_nat up + r) =
    match nth_error x i with None => None | Some v => Some (if (r =? 0)%nat then v else C0) end.
Proof.
  intros H. unfold zero_insert. destruct (Z.leb_spec up 0); [lia|].
  eexists. split; [reflexivity|]. assert (E : Z.to_nat up = S (Z.to_nat up - 1)) by lia.
  set (k := (Z.to_nat up - 1)%nat) in *. rewrite E. split; [apply flat_length|]. split.
  - apply nth_error_ext_lt.
    + rewrite stride_length by lia. rewrite flat_length. replace (length x * S k + S k - 1)%nat with (length x * S k + k)%nat by lia.
      rewrite Nat.div_add_l by lia. rewrite Nat.div_small by lia. lia.
    + intros i _. rewrite stride_nth by lia. pose proof (flat_nth x k i 0 ltac:(lia)) as F. rewrite Nat.add_0_r in F. rewrite F.
      destruct (nth_error x i); reflexivity.
  - intros i r Hr. apply flat_nth. lia.
Qed.

(** ** lengths *)
Lemma pulse_length z fs T beta taps y : rrcos_pulseshaping z fs T beta taps = Ok y -> length y = length z.
Proof.
  destruct taps as [n|]; cbn [rrcos_pulseshaping].
  - destruct (rrcos_time (filter_times n fs) beta T) as [h|]; [|discriminate]. cbn [bind]. destruct (rmaxl h) as [m|]; [|discriminate]. cbn [bind].
    intros H. injection H as <-. unfold conv_same. rewrite map_length, seq_length. reflexivity.
  - unfold rrcos_pulseshaping_freq. unfold rrcos_freq, rcos_freq. destruct (Req_EM_T T 0); [discriminate|]. destruct (Req_EM_T beta 0); [discriminate|]. cbn [bind].
    destruct (rmaxl _) as [m|]; [|discriminate]. cbn [bind]. intros H. injection H as <-.
    rewrite idft_length, cmul_list_length; rewrite dft_length; [reflexivity|]. rewrite !map_length. unfold fftfreq. rewrite map_length, seq_length. reflexivity.
Qed.
Lemma pulse_total z fs T beta taps : T <> 0%R -> beta <> 0%R -> (match taps with Some n => (2 <= n)%nat | None => z <> [] end) ->
  exists y, rrcos_pulseshaping z fs T beta taps = Ok y.
Proof.
  intros HT Hb H. destruct taps as [n|]; cbn [rrcos_pulseshaping].
  - unfold rrcos_time. destruct (Req_EM_T T 0); [contradiction|]. unfold filter_times. destruct n as [|[|n]]; [lia|lia|].
    cbn [seq map getn nth_error bind]. destruct (Req_EM_T beta 0); [contradiction|]. cbn [bind map rmaxl]. eexists. reflexivity.
  - unfold rrcos_pulseshaping_freq, rrcos_freq, rcos_freq. destruct (Req_EM_T T 0); [contradiction|]. destruct (Req_EM_T beta 0); [contradiction|]. cbn [bind].
    destruct z as [|z0 z]; [contradiction|]. unfold fftfreq. cbn [length seq map rmaxl bind]. eexists. reflexivity.
Qed.
Lemma stride_ceil {A} (l : list A) n up down : (0 < up)%Z -> (0 < down)%Z -> length l = (n * Z.to_nat up)%nat ->
  ceil_of (Z.of_nat n) up down (Z.of_nat (length (stride (Z.to_nat down) l))).
Proof.
  intros Hu Hd L. rewrite stride_length by lia. rewrite L. unfold ceil_of.
  set (d := Z.to_nat down). set (u := Z.to_nat up). replace up with (Z.of_nat u) by lia. replace down with (Z.of_nat d) by lia.
  assert (Pd : (0 < d)%nat) by lia.
  pose proof (Nat.div_mod (n * u + d - 1) d ltac:(lia)) as DM. pose proof (Nat.mod_upper_bound (n * u + d - 1) d ltac:(lia)) as MB.
  set (q := ((n * u + d - 1) / d)%nat) in *. set (r := ((n * u + d - 1) mod d)%nat) in *. clearbody q r. nia.
Qed.
Lemma renorm_length ren s y : length (renorm ren s y) = length y.
Proof.
  unfold renorm. destruct ren; rewrite !map_length; [|reflexivity]. unfold nc_row, cdiv_row.
  destruct (Req_EM_T _ 0); rewrite map_length; unfold center_row; rewrite map_length; reflexivity.
Qed.
Section Poly.
Variable poly : list C -> Z -> Z -> option (list R) -> result (list C).
Lemma resample_gen signal fold fnew u d Ts beta taps ren fftconv : ~ (fold == 0)%Q -> resamplingfactors fold fnew = Ok (u, Zpos d) -> (0 < u)%Z ->
  (0 < beta <= 1)%R -> Ts <> Some 0%R -> (fftconv = true \/ taps = None) -> (match taps with Some n => (2 <= n)%nat | None => signal <> [] end) ->
  exists y, rrcos_resample poly signal fold fnew Ts (Some beta) taps ren fftconv = Ok y /\ ceil_of (Z.of_nat (length signal)) u (Zpos d) (Z.of_nat (length y)).
Proof.
  intros H0 F Hu Hb HT Hc Ht. unfold rrcos_resample. destruct (Rlt_dec 0 beta) as [_|]; [|lra]. destruct (Rle_dec beta 1) as [_|]; [|lra].
  assert (Hq : Q2R fold <> 0%R).
  { intros E. apply H0. apply eqR_Qeq. rewrite E. unfold Q2R. cbn. lra. }
  assert (ET : exists T, T <> 0%R /\ match Ts with Some T => Ok T | None => if Qeq_bool fold 0 then Err ZeroDivisionError else Ok (1 / Q2R fold)%R end = Ok T).
  { destruct Ts as [T|]; [exists T; split; [congruence|reflexivity]|]. destruct (Qeq_bool fold 0) eqn:Q; [apply Qeq_bool_iff in Q; contradiction|].
    eexists. split; [|reflexivity]. unfold Rdiv. rewrite Rmult_1_l. apply Rinv_neq_0_compat. exact Hq. }
  destruct ET as (T & NT & ET). rewrite ET. cbn [bind]. rewrite F. cbn [bind fst snd].
  destruct (zero_insert_ok u signal Hu) as (z & Ez & Lz & _ & Nz).
  assert (Hz : match taps with Some n => (2 <= n)%nat | None => z <> [] end).
  { destruct taps; [exact Ht|]. intros ->. cbn in Lz. destruct signal; [contradiction|]. cbn [length] in Lz. nia. }
  destruct (pulse_total z (IZR u * Q2R fold) T beta taps NT ltac:(lra) Hz) as (y & Ey).
  assert (B : (match fftconv, taps with
     | false, Some n => let! nqf := rrcos_time (filter_times n (IZR u * Q2R fold)) beta T in let! mx := rmaxl nqf in poly signal u (Zpos d) (Some (map (fun v => (v / mx)%R) nqf))
     | _, _ => let! z := zero_insert u signal in let! z := rrcos_pulseshaping z (IZR u * Q2R fold) T beta taps in Ok (stride (Z.to_nat (Zpos d)) z)
     end) = Ok (stride (Z.to_nat (Zpos d)) y)).
  { destruct Hc as [-> | ->]; [|destruct fftconv]; rewrite Ez; cbn [bind]; rewrite Ey; reflexivity. }
  rewrite B. cbn [bind]. eexists. split; [reflexivity|]. rewrite renorm_length. apply stride_ceil; [exact Hu|lia|].
  rewrite (pulse_length _ _ _ _ _ _ Ey). exact Lz.
Qed.
Lemma resample_bad signal fold fnew u d Ts beta taps ren fftconv : ~ (fold == 0)%Q -> resamplingfactors fold fnew = Ok (u, Zpos d) -> (u <= 0)%Z ->
  (0 < beta <= 1)%R -> (fftconv = true \/ taps = None) ->
  rrcos_resample poly signal fold fnew Ts (Some beta) taps ren fftconv = Err ValueError.
Proof.
  intros H0 F Hu Hb Hc. unfold rrcos_resample. destruct (Rlt_dec 0 beta) as [_|]; [|lra]. destruct (Rle_dec beta 1) as [_|]; [|lra].
  assert (ET : exists T, match Ts with Some T => Ok T | None => if Qeq_bool fold 0 then Err ZeroDivisionError else Ok (1 / Q2R fold)%R end = Ok T).
  { destruct Ts as [T|]; [exists T; reflexivity|]. destruct (Qeq_bool fold 0) eqn:Q; [apply Qeq_bool_iff in Q; contradiction|]. eexists. reflexivity. }
  destruct ET as (T & ET). rewrite ET. cbn [bind]. rewrite F. cbn [bind fst snd].
  assert (Z : zero_insert u signal = Err ValueError) by (unfold zero_insert; destruct (Z.leb_spec u 0); [reflexivity|lia]).
  destruct Hc as [-> | ->]; [|destruct fftconv]; rewrite Z; reflexivity.
Qed.
Lemma resample_poly_len signal fold fnew u d Ts taps ren fftconv y0 : resamplingfactors fold fnew = Ok (u, Zpos d) ->
  poly signal u (Zpos d) None = Ok y0 ->
  rrcos_resample poly signal fold fnew Ts None taps ren fftconv = Ok (map Some y0).
Proof. intros F P. unfold rrcos_resample, resample_poly. rewrite F. cbn [bind fst snd]. rewrite P. reflexivity. Qed.

(** ** renormalised power *)
Lemma renorm_power signal y : ~ constant y -> exists v, renorm true signal y = map Some v /\ sample_mean v = C0 /\ sample_power v = sample_power signal.
Proof.
  intros H. destruct (nc_row_ok y H) as (w & a & E & _ & M & P & _).
  exists (map (Cscal (sqrt (mean_power signal))) w). unfold renorm. rewrite E. split; [|split].
  - rewrite !map_map. apply map_ext. intros z. reflexivity.
  - unfold sample_mean in *. rewrite map_length, Csum_scal.
    assert (Q : (Cscal (sqrt (mean_power signal)) (Cscal (/ INR (length w)) (Csum w)) = C0)) by (rewrite M; apply C_eq; cbn; ring).
    rewrite <- Q. apply C_eq; cbn; ring.
  - unfold sample_power in *. rewrite map_length, power_scal, sqrt_sqrt by apply mean_power_nonneg.
    unfold Rdiv in *. rewrite Rmult_assoc, P. unfold mean_power, Rmean. rewrite map_length. unfold Rdiv. ring.
Qed.
Lemma resample_renorm signal fold fnew Ts beta taps fftconv : 
  forall y0, rrcos_resample poly signal fold fnew Ts (Some beta) taps false fftconv = Ok (map Some y0) ->
  rrcos_resample poly signal fold fnew Ts (Some beta) taps true fftconv = Ok (renorm true signal y0).
Proof.
  intros y0. unfold rrcos_resample. destruct (Rlt_dec 0 beta); [|discriminate]. destruct (Rle_dec beta 1); [|discriminate].
  destruct (match Ts with Some T => Ok T | None => _ end) as [T|]; [|discriminate]. cbn [bind].
  destruct (resamplingfactors fold fnew) as [f|]; [|discriminate]. cbn [bind].
  destruct (match fftconv, taps with | false, Some n => _ | _, _ => _ end) as [new|]; [|discriminate]. cbn [bind].
  intros H. assert (E : new = y0).
  { cbv [renorm] in H. assert (H' : map Some new = map Some y0) by (injection H; exact (fun h => h)).
    clear H. revert y0 H'. induction new as [|a new IH]; intros [|b y0] H; try discriminate; [reflexivity|].
    cbn [map] in H. injection H as H1 H2. subst b. f_equal. apply IH. exact H2. }
  rewrite E. reflexivity.
Qed.
Lemma resample_renorm_power signal fold fnew Ts beta taps fftconv y0 :
  rrcos_resample poly signal fold fnew Ts (Some beta) taps false fftconv = Ok (map Some y0) -> ~ constant y0 ->
  exists v, rrcos_resample poly signal fold fnew Ts (Some beta) taps true fftconv = Ok (map Some v) /\ sample_mean v = C0 /\ sample_power v = sample_power signal.
Proof.
  intros H N. rewrite (resample_renorm _ _ _ _ _ _ _ _ H). destruct (renorm_power signal y0 N) as (v & E & M & P). exists v. rewrite E. repeat split; assumption.
Qed.
Lemma resample_renorm_ignored signal fold fnew Ts taps fftconv :
  rrcos_resample poly signal fold fnew Ts None taps true fftconv = rrcos_resample poly signal fold fnew Ts None taps false fftconv.
Proof. reflexivity. Qed.

(** ** signal objects *)
Lemma rows_same arr fnew fold fb Ts beta taps ren fftconv : ~ (fold == 0)%Q -> (fnew == fold)%Q ->
  resample_rows poly arr fnew fold fb Ts beta taps ren fftconv = Ok (map (map Some) arr).
Proof.
  intros H E. unfold resample_rows. destruct (Qeq_bool fold 0) eqn:Q; [apply Qeq_bool_iff in Q; contradiction|].
  assert (C : close_to_one (fnew / fold) = true).
  { unfold close_to_one. apply Qle_bool_iff. setoid_replace (fnew / fold - 1)%Q with 0%Q; [discriminate|]. rewrite E. field. exact H. }
  rewrite C. reflexivity.
Qed.
Lemma rows_close arr fnew fold fb Ts beta taps ren fftconv : ~ (fold == 0)%Q -> (Qabs (fnew / fold - 1) <= 1001 # 100000000)%Q ->
  resample_rows poly arr fnew fold fb Ts beta taps ren fftconv = Ok (map (map Some) arr).
Proof.
  intros H E. unfold resample_rows. destruct (Qeq_bool fold 0) eqn:Q; [apply Qeq_bool_iff in Q; contradiction|].
  assert (C : close_to_one (fnew / fold) = true) by (apply Qle_bool_iff; exact E). rewrite C. reflexivity.
Qed.
Lemma rows_len arr fnew fold fb Ts beta taps ren fftconv u d : ~ (fold == 0)%Q -> ~ (fb == 0)%Q -> (1001 # 100000000 < Qabs (fnew / fold - 1))%Q ->
  resamplingfactors fold fnew = Ok (u, Zpos d) -> (0 < u)%Z ->
  (0 < beta <= 1)%R -> Ts <> Some 0%R -> (fftconv = true \/ taps = None) -> (match taps with Some n => (2 <= n)%nat | None => ~ In [] arr end) ->
  exists out, resample_rows poly arr fnew fold fb Ts (Some beta) taps ren fftconv = Ok out /\
    Forall2 (fun x y => ceil_of (Z.of_nat (length x)) u (Zpos d) (Z.of_nat (length y))) arr out.
Proof.
  intros H Hfb E F Hu Hb HT Hc Ht. unfold resample_rows. destruct (Qeq_bool fold 0) eqn:Q; [apply Qeq_bool_iff in Q; contradiction|].
  destruct (close_to_one (fnew / fold)) eqn:C; [apply Qle_bool_iff in C; apply Qle_not_lt in C; contradiction|].
  assert (Hq : Q2R fb <> 0%R).
  { intros X. apply Hfb. apply eqR_Qeq. rewrite X. unfold Q2R. cbn. lra. }
  assert (ET : exists T, Some T <> Some 0%R /\ match Ts with Some T => Ok T | None => if Qeq_bool fb 0 then Err ZeroDivisionError else Ok (1 / Q2R fb)%R end = Ok T).
  { destruct Ts as [T|]; [exists T; split; [exact HT|reflexivity]|]. destruct (Qeq_bool fb 0) eqn:Q2; [apply Qeq_bool_iff in Q2; contradiction|].
    eexists. split; [|reflexivity]. intros X. injection X as X. unfold Rdiv in X. rewrite Rmult_1_l in X. exact (Rinv_neq_0_compat _ Hq X). }
  destruct ET as (T & NT & ET). rewrite ET. cbn [bind]. clear ET.
  induction arr as [|x arr IH]; [exists []; split; [reflexivity|constructor]|].
  destruct IH as (out & Eo & Fo).
  { destruct taps; [exact Ht|]. intros I. apply Ht. right. exact I. }
  destruct (resample_gen x fold fnew u d (Some T) beta taps ren fftconv H F Hu Hb NT Hc) as (y & Ey & Ly).
  { destruct taps; [exact Ht|]. intros ->. apply Ht. left. reflexivity. }
  exists (y :: out). cbn [mapM]. rewrite Ey. cbn [bind]. rewrite Eo. split; [reflexivity|constructor; assumption].
Qed.
End Poly.

(** ** ratios *)
Lemma rows_exact poly arr fnew fold fb Ts beta taps ren fftconv u d : ~ (fold == 0)%Q -> ~ (fb == 0)%Q -> (1001 # 100000000 < Qabs (fnew / fold - 1))%Q ->
  (fnew / fold == Zpos u # d)%Q -> Z.gcd (Zpos u) (Zpos d) = 1%Z -> (d <= 1000000)%positive ->
  (0 < beta <= 1)%R -> Ts <> Some 0%R -> (fftconv = true \/ taps = None) -> (match taps with Some n => (2 <= n)%nat | None => ~ In [] arr end) ->
  exists out, resample_rows poly arr fnew fold fb Ts (Some beta) taps ren fftconv = Ok out /\
    Forall2 (fun x y => ceil_of (Z.of_nat (length x)) (Zpos u) (Zpos d) (Z.of_nat (length y))) arr out.
Proof.
  intros H0 Hb Hf E G L B T F N. apply (rows_len poly arr fnew fold fb Ts beta taps ren fftconv (Zpos u) d); try assumption; [|lia].
  now apply factors_exact.
Qed.
Lemma rows_closest poly arr fnew fold fb Ts beta taps ren fftconv : ~ (fold == 0)%Q -> ~ (fb == 0)%Q -> (1001 # 100000000 < Qabs (fnew / fold - 1))%Q ->
  (1 # 1000000 <= fnew / fold)%Q ->
  (0 < beta <= 1)%R -> Ts <> Some 0%R -> (fftconv = true \/ taps = None) -> (match taps with Some n => (2 <= n)%nat | None => ~ In [] arr end) ->
  exists u d out, closest 1000000 (fnew / fold) (Zpos u # d) /\ resample_rows poly arr fnew fold fb Ts (Some beta) taps ren fftconv = Ok out /\
    Forall2 (fun x y => ceil_of (Z.of_nat (length x)) (Zpos u) (Zpos d) (Z.of_nat (length y))) arr out.
Proof.
  intros H0 Hb Hf Hr B T F N. destruct (factors_closest fold fnew H0) as (u & d & E & Hc).
  assert (Hu : (0 < u)%Z).
  { destruct (Z.le_gt_cases u 0) as [L|L]; [exfalso|lia]. destruct Hc as (_ & _ & Hc). specialize (Hc (1 # 1000000)%Q ltac:(cbn; lia)).
    assert (Hn : (u # d <= 0)%Q) by (unfold Qle; cbn; lia). assert (Hp : (0 < 1 # 1000000)%Q) by reflexivity.
    rewrite Qabs_neg in Hc by Lqa.lra. rewrite Qabs_neg in Hc by Lqa.lra. Lqa.lra. }
  destruct u as [|u|u]; try lia. destruct (rows_len poly arr fnew fold fb Ts beta taps ren fftconv (Zpos u) d) as (out & Eo & Ho); try assumption.
  exists u, d, out. auto.
Qed.
Lemma rows_almost_one poly x fb Ts beta taps ren fftconv :
  resample_rows poly [[x]] 100001 100000 fb Ts beta taps ren fftconv = Ok [[Some x]] /\ ~ ceil_of 1 100001 100000 1.
Proof. split; [apply (rows_close poly [[x]]); [intros H; discriminate H|vm_compute; discriminate]|]. unfold ceil_of. lia. Qed.
Lemma resample_tiny poly signal Ts beta taps ren : (0 < beta <= 1)%R ->
  rrcos_resample poly signal 3000000 1 Ts (Some beta) taps ren true = Err ValueError.
Proof.
  intros B. apply (resample_bad poly signal 3000000 1 0 1); [intros H; discriminate H|vm_compute; reflexivity|lia|assumption|now left].
Qed.

(** scipy's polyphase resampler gets the factors in lowest terms, and what it returns is returned *)
Lemma rows_poly poly arr fnew fold fb Ts taps ren fftconv u d out : ~ (fold == 0)%Q -> ~ (fb == 0)%Q -> (1001 # 100000000 < Qabs (fnew / fold - 1))%Q ->
  (fnew / fold == Zpos u # d)%Q -> Z.gcd (Zpos u) (Zpos d) = 1%Z -> (d <= 1000000)%positive ->
  Forall2 (fun x y => poly x (Zpos u) (Zpos d) None = Ok y) arr out ->
  resample_rows poly arr fnew fold fb Ts None taps ren fftconv = Ok (map (map Some) out).
Proof.
  intros H0 Hb Hf E G L H. unfold resample_rows, close_to_one.
  destruct (Qeq_bool fold 0) eqn:Q0; [apply Qeq_bool_iff in Q0; contradiction|].
  destruct (Qle_bool _ _) eqn:Q1; [apply Qle_bool_iff in Q1; exfalso; Lqa.lra|].
  destruct (Qeq_bool fb 0) eqn:Q2; [apply Qeq_bool_iff in Q2; contradiction|].
  assert (M : forall T, mapM (fun row => rrcos_resample poly row fold fnew T None taps ren fftconv) arr = Ok (map (map Some) out)).
  { intros T. induction H as [|x y l l' Hy _ IH]; [reflexivity|]. cbn [mapM map].
    rewrite (resample_poly_len poly x fold fnew (Zpos u) d T taps ren fftconv y (factors_exact _ _ _ _ H0 E G L) Hy). cbn [bind]. rewrite IH. reflexivity. }
  destruct Ts; cbn [bind]; apply M.
Qed.
