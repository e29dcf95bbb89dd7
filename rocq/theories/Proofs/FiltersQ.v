(** Proofs about rectangular, Gaussian and exponential filters and dispersion compensation. *)
From Coq Require Import Reals List Lra Lia ZArith Arith Psatz Bool.
From Coq Require Import ZifyBool ZifyNat ZifyN.
From Verif Require Import Common.Py Common.Cplx Common.SumX Common.Angle Common.ListX Common.Dft
  Model.Helpers Model.Phase Model.Impair Model.Filters Spec.ImpairSpec Spec.FilterSpec Proofs.ImpairQ Proofs.ImpairS Proofs.ImpairT.
Import ListNotations.
Local Open Scope R_scope.

(** multiplying the shifted spectrum by h multiplies bin k by h[(k + N/2) mod N] *)
Definition centre (N k : nat) : nat := unmod N (- Z.of_nat (N / 2)) k.
Lemma centre_lt N k : (0 < N)%nat -> (centre N k < N)%nat.
Proof. apply unmod_lt. Qed.
Lemma centre_val N k : (k < N)%nat -> centre N k = if (2 * k <? N)%nat then (k + N / 2)%nat else if (k + N / 2 <? N)%nat then (k + N / 2)%nat else (k + N / 2 - N)%nat.
Proof.
  intros H. unfold centre, unmod. pose proof (Nat.div_mod N 2 ltac:(lia)) as D. pose proof (Nat.mod_upper_bound N 2 ltac:(lia)).
  set (h := (N / 2)%nat) in *. set (m := (N mod 2)%nat) in *. clearbody h m.
  assert (E : (Z.of_nat k - - Z.of_nat h = Z.of_nat (k + h))%Z) by lia. rewrite E.
  destruct (k + h <? N)%nat eqn:B.
  - rewrite Z.mod_small by lia. rewrite Nat2Z.id. destruct (2 * k <? N)%nat; reflexivity.
  - rewrite <- (Z_mod_plus_full (Z.of_nat (k + h)) (-1)). rewrite Z.mod_small by lia.
    destruct (2 * k <? N)%nat eqn:B2; lia.
Qed.
Lemma shifted_mul X h : length X = length h -> ifftshift (cmul_list (fftshift X) h) = cmul_list X (ifftshift h).
Proof.
  intros HL. unfold ifftshift at 1. rewrite cmul_list_length by (rewrite fftshift_length; exact HL).
  rewrite fftshift_length. rewrite roll_cmul by (rewrite fftshift_length; exact HL).
  f_equal.
  - unfold fftshift. rewrite roll_roll. replace (- Z.of_nat (length X / 2) + Z.of_nat (length X / 2))%Z with 0%Z by lia. apply roll_0.
  - unfold ifftshift. rewrite HL. reflexivity.
Qed.
Lemma ifftshift_nth h k : (k < length h)%nat -> nth k (ifftshift h) C0 = nth (centre (length h) k) h C0.
Proof. intros H. unfold ifftshift. apply roll_nth'. exact H. Qed.
Lemma cmul_bin x h k : length h = length x -> (k < length x)%nat ->
  nth k (cmul_list (dft x) (ifftshift h)) C0 = (nth (centre (length x) k) h C0 * nth k (dft x) C0)%C.
Proof.
  intros HL Hk. rewrite cmul_list_nth by (rewrite ?dft_length, ?ifftshift_length; lia).
  rewrite ifftshift_nth by lia. rewrite HL. ring.
Qed.

(** ** pre_filter *)
Lemma clipz_pos n c : (0 <= n -> 0 <= c -> clipz n c = Z.min n c)%Z.
Proof. intros A B. unfold clipz. destruct (c <? 0)%Z eqn:E; lia. Qed.
Lemma clipz_neg n c : (0 <= n -> 0 < c -> clipz n (- c) = Z.max 0 (n - c))%Z.
Proof. intros A B. unfold clipz. destruct (- c <? 0)%Z eqn:E; lia. Qed.
Lemma roll_In {A} d (l : list A) z : In z (roll d l) -> In z l.
Proof.
  intros H. apply In_nth_error in H as [i Hi]. assert (L : (i < length (roll d l))%nat) by (apply nth_error_Some; congruence).
  rewrite roll_length in L. rewrite roll_nth in Hi by exact L. apply nth_error_In in Hi. exact Hi.
Qed.
Lemma box_length n lo hi : length (box n lo hi) = n.
Proof. unfold box. rewrite map_length, seq_length. reflexivity. Qed.
Lemma box_nth n lo hi i : (i < n)%nat ->
  nth i (box n lo hi) C0 = if (clipz (Z.of_nat n) lo <=? Z.of_nat i)%Z && (Z.of_nat i <? clipz (Z.of_nat n) hi)%Z then C1 else C0.
Proof. intros H. unfold box. rewrite nth_map_seq by exact H. reflexivity. Qed.
Lemma pre_filter_bins bw row : filtered_bins (fun k => nth (centre (length row) k)
    (box (length row) (truncR (INR (length row) / (bw / 2))) (- truncR (INR (length row) / (bw / 2)))) C0) row (pre_filter_row bw row).
Proof.
  unfold pre_filter_row. set (c := truncR _). set (N := length row).
  rewrite shifted_mul by (rewrite dft_length, box_length; reflexivity). split.
  - rewrite idft_length, cmul_list_length; rewrite dft_length; [reflexivity|rewrite ifftshift_length, box_length; reflexivity].
  - intros k Hk. fold N in Hk. rewrite dft_idft. apply cmul_bin; [apply box_length|exact Hk].
Qed.
Lemma idft_zero (X : list C) : (forall z, In z X -> z = C0) -> idft X = repeat C0 (length X).
Proof.
  intros H. apply nth_list_ext; [rewrite idft_length, repeat_length; reflexivity|].
  rewrite idft_length. intros k Hk. rewrite idft_nth by exact Hk. rewrite nth_repeat.
  rewrite csum_zero; [cring|]. intros i Hi. rewrite (H (nth i X C0)) by (apply nth_In; exact Hi). cring.
Qed.
Lemma filtered_bins_zero H x y : filtered_bins H x y -> (forall k, (k < length x)%nat -> H k = C0) -> y = repeat C0 (length x).
Proof.
  intros [HL HE] HZ. rewrite <- (idft_dft y). rewrite <- HL, <- (dft_length y). apply idft_zero.
  intros z Hz. apply (In_nth _ _ C0) in Hz as [k [Hk <-]]. rewrite dft_length, HL in Hk. rewrite HE, HZ by exact Hk. cring.
Qed.
Lemma floor_unique x z : IZR z <= x < IZR z + 1 -> Int_part x = z.
Proof.
  intros H. destruct (base_Int_part x) as [A B].
  assert (Int_part x < z + 1)%Z by (apply lt_IZR; rewrite plus_IZR; lra).
  assert (z < Int_part x + 1)%Z by (apply lt_IZR; rewrite plus_IZR; lra). lia.
Qed.
Lemma trunc_floor x z : 0 <= x -> IZR z <= x < IZR z + 1 -> truncR x = z.
Proof. intros H0 H. unfold truncR. destruct (Rle_dec 0 x); [|contradiction]. apply floor_unique. exact H. Qed.
Lemma trunc_bounds x : 0 <= x -> (0 <= truncR x)%Z /\ IZR (truncR x) <= x < IZR (truncR x) + 1.
Proof.
  intros H0. unfold truncR. destruct (Rle_dec 0 x); [|contradiction]. destruct (base_Int_part x) as [A B].
  split; [|lra]. assert (0 < Int_part x + 1)%Z by (apply lt_IZR; rewrite plus_IZR; lra). lia.
Qed.
(** a bandwidth given as a fraction of the length removes everything *)
Lemma pre_filter_none bw row : 0 < bw <= 2 -> pre_filter_row bw row = repeat C0 (length row).
Proof.
  intros Hbw. apply (filtered_bins_zero _ _ _ (pre_filter_bins bw row)). intros k Hk.
  set (N := length row) in *. assert (HN : 0 < INR N) by (apply lt_0_INR; lia).
  rewrite box_nth by (apply centre_lt; lia).
  assert (Q : INR N <= INR N / (bw / 2)).
  { unfold Rdiv at 1. assert (1 <= / (bw / 2)) by (rewrite <- Rinv_1; apply Rinv_le_contravar; lra). nra. }
  destruct (trunc_bounds (INR N / (bw / 2)) ltac:(lra)) as [T0 [T1 T2]]. set (c := truncR _) in *.
  assert (Z.of_nat N <= c)%Z by (apply Z.lt_succ_r, lt_IZR; rewrite succ_IZR, <- INR_IZR_INZ; lra).
  rewrite clipz_pos, clipz_neg by lia. pose proof (centre_lt N k ltac:(lia)).
  match goal with |- (if ?b then _ else _) = _ => destruct b eqn:B end; [|reflexivity]. lia.
Qed.
Lemma pre_filter_wide bw row : 2 * INR (length row) < bw -> pre_filter_row bw row = repeat C0 (length row).
Proof.
  intros Hbw. apply (filtered_bins_zero _ _ _ (pre_filter_bins bw row)). intros k Hk.
  set (N := length row) in *. assert (HN : 0 < INR N) by (apply lt_0_INR; lia).
  rewrite box_nth by (apply centre_lt; lia).
  rewrite (trunc_floor _ 0).
  - rewrite (clipz_pos _ 0), (clipz_pos _ (- 0)) by lia. pose proof (centre_lt N k ltac:(lia)).
    match goal with |- (if ?b then _ else _) = _ => destruct b eqn:B end; [lia|reflexivity].
  - left. apply Rdiv_lt_0_compat; lra.
  - split; [left; apply Rdiv_lt_0_compat; lra|]. apply (Rmult_lt_reg_r (bw / 2)); [lra|].
    unfold Rdiv at 1. rewrite Rmult_assoc, Rinv_l by lra. lra.
Qed.
(** otherwise it is a low pass that cuts c bins on either side of the spectrum *)
Lemma pre_filter_pass bw row c : (1 <= c)%nat -> INR c <= 2 * INR (length row) / bw < INR c + 1 -> 0 < bw ->
  filtered_bins (fun k => if (c <=? centre (length row) k)%nat && (centre (length row) k + c <? length row)%nat then C1 else C0) row (pre_filter_row bw row).
Proof.
  intros Hc HB Hbw. destruct (pre_filter_bins bw row) as [HL HE]. split; [exact HL|]. intros k Hk. rewrite HE by exact Hk.
  apply (f_equal (fun z => (z * nth k (dft row) C0)%C)).
  assert (HN : 0 < INR (length row)) by (apply lt_0_INR; lia).
  assert (T : truncR (INR (length row) / (bw / 2)) = Z.of_nat c).
  { replace (INR (length row) / (bw / 2)) with (2 * INR (length row) / bw) by (field; lra).
    apply trunc_floor; [pose proof (pos_INR c); lra|]. rewrite <- INR_IZR_INZ. exact HB. }
  rewrite T. pose proof (centre_lt (length row) k ltac:(lia)). rewrite box_nth by assumption. rewrite clipz_pos, clipz_neg by lia.
  match goal with |- (if ?b then _ else _) = (if ?b' then _ else _) => replace b with b'; [reflexivity|] end. lia.
Qed.

(** ** Gaussian and exponential filters *)
Lemma shift_even N : Nat.Even N -> forall (l : list C), length l = N -> fftshift l = ifftshift l.
Proof.
  intros [m Hm] l HL. unfold fftshift, ifftshift. rewrite HL, Hm.
  replace (2 * m / 2)%nat with m by (rewrite Nat.mul_comm, Nat.div_mul; lia).
  destruct (Nat.eq_dec m 0) as [->|Hm0]; [reflexivity|].
  apply nth_list_ext; [rewrite !roll_length; reflexivity|]. rewrite roll_length. intros k Hk.
  rewrite !roll_nth' by exact Hk. f_equal. unfold unmod. rewrite HL, Hm. f_equal.
  rewrite <- (Z_mod_plus_full (Z.of_nat k - Z.of_nat m) 1). f_equal. lia.
Qed.
Lemma freqs_nth fs N i : (i < N)%nat -> nth i (filter_freqs fs N) 0 = - fs / 2 + INR i * (fs / INR N).
Proof. intros H. unfold filter_freqs. apply (nth_map_seq (fun i => - fs / 2 + INR i * (fs / INR N))). exact H. Qed.
Lemma centre_freq fs N k : Nat.Even N -> (k < N)%nat -> - fs / 2 + INR (centre N k) * (fs / INR N) = bin_freq fs N k.
Proof.
  intros [m Hm] Hk. rewrite centre_val by exact Hk. unfold bin_freq.
  assert (E : (N / 2 = m)%nat) by (rewrite Hm, Nat.mul_comm, Nat.div_mul; lia). rewrite E.
  assert (HN : 0 < INR N) by (apply lt_0_INR; lia).
  assert (EN : INR N = 2 * INR m) by (rewrite Hm, mult_INR; reflexivity).
  destruct (2 * k <? N)%nat eqn:B.
  - rewrite plus_INR, EN. field. lra.
  - destruct (k + m <? N)%nat eqn:B2; [lia|]. rewrite minus_INR, plus_INR by lia. rewrite EN. field. lra.
Qed.
(** the even-length core of both filters *)
Definition shaped (h row : list C) : list C := fftshift (idft (fftshift (cmul_list (fftshift (dft (fftshift row))) h))).
Lemma shaped_even h row : Nat.Even (length row) -> length h = length row ->
  filtered_bins (fun k => nth (centre (length row) k) h C0) row (shaped h row).
Proof.
  intros He HL. set (N := length row) in *.
  assert (L1 : length (fftshift (dft (fftshift row))) = N) by (rewrite fftshift_length, dft_length, fftshift_length; reflexivity).
  assert (E : shaped h row = fftshift (idft (cmul_list (dft (ifftshift row)) (ifftshift h)))).
  { unfold shaped. rewrite (shift_even N He (cmul_list _ _)) by (rewrite cmul_list_length; lia).
    rewrite (shift_even N He row) by reflexivity. rewrite shifted_mul; [reflexivity|].
    rewrite dft_length, ifftshift_length. symmetry. exact HL. }
  rewrite E. clear E.
  assert (L2 : length (cmul_list (dft (ifftshift row)) (ifftshift h)) = N).
  { rewrite cmul_list_length; rewrite dft_length, ifftshift_length; [reflexivity|rewrite ifftshift_length; fold N; lia]. }
  split; [rewrite fftshift_length, idft_length; exact L2|].
  intros k Hk. fold N in Hk. unfold fftshift. rewrite idft_length, L2.
  rewrite dft_roll by (rewrite idft_length, L2; exact Hk). rewrite idft_length, L2, dft_idft.
  rewrite cmul_list_nth by (rewrite ?dft_length, ?ifftshift_length; lia).
  rewrite ifftshift_nth by lia. rewrite HL. unfold ifftshift. rewrite dft_roll by exact Hk. fold N.
  rewrite opp_IZR. set (t := 2 * PI * INR k * IZR (Z.of_nat (N / 2)) / INR N).
  replace (- (2 * PI * INR k * - IZR (Z.of_nat (N / 2)) / INR N)) with t by (unfold t, Rdiv; ring).
  transitivity (nth (centre N k) h C0 * nth k (dft row) C0 * (Cexpi t * Cexpi (- t)))%C; [ring|].
  rewrite <- Cexpi_add. replace (t + - t) with 0 by ring. rewrite Cexpi_0. ring.
Qed.

Lemma gauss_row_ok fs cutoff row : Nat.Even (length row) ->
  filtered (gauss_gain cutoff) fs row (shaped (map (fun f => RtoC (gauss_gain cutoff f)) (filter_freqs fs (length row))) row).
Proof.
  intros He. set (N := length row). set (h := map _ _).
  assert (Lh : length h = N) by (unfold h, filter_freqs; rewrite !map_length, seq_length; reflexivity).
  destruct (shaped_even h row He Lh) as [HL HE]. split; [exact HL|]. intros k Hk. rewrite HE by exact Hk. fold N in Hk |- *.
  assert (Hc : (centre N k < N)%nat) by (apply centre_lt; lia).
  assert (En : nth (centre N k) h C0 = RtoC (gauss_gain cutoff (bin_freq fs N k))).
  { unfold h. rewrite (nth_indep _ C0 (RtoC (gauss_gain cutoff 0))) by (unfold filter_freqs; rewrite !map_length, seq_length; exact Hc).
    rewrite (map_nth (fun f => RtoC (gauss_gain cutoff f))), freqs_nth, centre_freq by assumption. reflexivity. }
  rewrite En. cring.
Qed.
Lemma exp_gain_le c f : exp_gain c f <= 1.
Proof.
  unfold exp_gain. cbv zeta. match goal with |- exp (- sqrt ?x) <= 1 => pose proof (sqrt_pos x) as P; set (s := sqrt x) in * end.
  destruct P as [P|<-]; [|rewrite Ropp_0, exp_0; lra]. left. rewrite <- exp_0. apply exp_increasing. lra.
Qed.
Lemma exp_gain_0 c : exp_gain c 0 = 1.
Proof.
  unfold exp_gain. cbv zeta. match goal with |- exp (- sqrt ?x) = 1 => replace x with 0 end.
  - rewrite sqrt_0, Ropp_0. apply exp_0.
  - unfold Rdiv. ring.
Qed.
Lemma exp_max fs cutoff N : Nat.Even N -> (0 < N)%nat -> rmaxl (map (exp_gain cutoff) (filter_freqs fs N)) = Ok 1.
Proof.
  intros He HN. apply rmaxl_spec. split.
  - apply in_map_iff. exists 0. split; [apply exp_gain_0|].
    assert (E : nth (centre N 0) (filter_freqs fs N) 0 = 0).
    { rewrite freqs_nth by (apply centre_lt; exact HN). rewrite centre_freq by assumption. unfold bin_freq.
      destruct (2 * 0 <? N)%nat eqn:B; [cbn; ring|lia]. }
    rewrite <- E. apply nth_In. unfold filter_freqs. rewrite map_length, seq_length. apply centre_lt. exact HN.
  - intros x Hx. apply in_map_iff in Hx as [f [<- _]]. apply exp_gain_le.
Qed.
Lemma exp_row_ok fs cutoff row : Nat.Even (length row) -> (0 < length row)%nat ->
  filtered (exp_gain cutoff) fs row (shaped (map (fun v => RtoC (v / 1)) (map (exp_gain cutoff) (filter_freqs fs (length row)))) row).
Proof.
  intros He HN. set (N := length row) in *. set (h := map _ _).
  assert (Lh : length h = N) by (unfold h, filter_freqs; rewrite !map_length, seq_length; reflexivity).
  destruct (shaped_even h row He Lh) as [HL HE]. split; [exact HL|]. intros k Hk. rewrite HE by exact Hk. fold N in Hk |- *.
  assert (Hc : (centre N k < N)%nat) by (apply centre_lt; lia).
  assert (En : nth (centre N k) h C0 = RtoC (exp_gain cutoff (bin_freq fs N k))).
  { unfold h. rewrite map_map. rewrite (nth_indep _ C0 ((fun x => RtoC (exp_gain cutoff x / 1)) 0)) by (unfold filter_freqs; rewrite !map_length, seq_length; exact Hc).
    rewrite (map_nth (fun x => RtoC (exp_gain cutoff x / 1))), freqs_nth, centre_freq by assumption. unfold Rdiv. rewrite Rinv_1, Rmult_1_r. reflexivity. }
  rewrite En. cring.
Qed.

Lemma shift_all_length X : length (shift_all X) = length X.
Proof. unfold shift_all. rewrite fftshift_length, map_length. reflexivity. Qed.
Lemma fftshift_map {A B} (f : A -> B) l : fftshift (map f l) = map f (fftshift l).
Proof. unfold fftshift. rewrite map_length, roll_map. reflexivity. Qed.
Lemma shift_twice_even {A} (l : list A) : Nat.Even (length l) -> fftshift (fftshift l) = l.
Proof.
  intros [m Hm]. unfold fftshift. rewrite roll_length, roll_roll, Hm.
  replace (2 * m / 2)%nat with m by (rewrite Nat.mul_comm, Nat.div_mul; lia).
  destruct (Nat.eq_dec m 0) as [->|Hm0]; [apply roll_0|].
  apply nth_error_ext_lt; [apply roll_length|]. rewrite roll_length. intros k Hk. rewrite roll_nth by exact Hk.
  f_equal. rewrite Hm. rewrite <- (Z_mod_plus_full _ 1).
  replace (Z.of_nat k - (Z.of_nat m + Z.of_nat m) + 1 * Z.of_nat (2 * m))%Z with (Z.of_nat k) by lia.
  rewrite Z.mod_small by lia. lia.
Qed.
Lemma gauss2 rows fs cutoff : filter_gauss (D2 rows) fs cutoff =
  D2 (fftshift (fftshift (map (fun row => shaped (map (fun f => RtoC (gauss_gain cutoff f)) (filter_freqs fs (length row))) row) rows))).
Proof.
  unfold filter_gauss, shift_all. cbv zeta. apply f_equal.
  rewrite <- !fftshift_map, !map_map. unfold shaped. reflexivity.
Qed.
Lemma exp1 row fs cutoff m : rmaxl (map (exp_gain cutoff) (filter_freqs fs (length row))) = Ok m ->
  filter_exp (D1 row) fs cutoff = Ok (D1 (shaped (map (fun v => RtoC (v / m)) (map (exp_gain cutoff) (filter_freqs fs (length row)))) row)).
Proof. intros HM. unfold filter_exp. cbv zeta. rewrite HM. cbn [bind]. unfold shaped. reflexivity. Qed.
Lemma exp2 rows fs cutoff m n : Forall (fun r => length r = n) rows -> rows <> [] ->
  rmaxl (map (exp_gain cutoff) (filter_freqs fs n)) = Ok m ->
  filter_exp (D2 rows) fs cutoff = Ok (D2 (fftshift (fftshift (fftshift (fftshift
    (map (shaped (map (fun v => RtoC (v / m)) (map (exp_gain cutoff) (filter_freqs fs n)))) rows)))))).
Proof.
  intros HR Hne HM. unfold filter_exp. cbv zeta. replace (row_length rows) with n.
  2:{ destruct rows as [|r l]; [congruence|]. inversion HR. cbn [row_length]. congruence. }
  rewrite HM. cbn [bind]. apply f_equal. apply f_equal. set (h := map (fun v => RtoC (v / m)) _). clearbody h. unfold shift_all.
  rewrite <- !fftshift_map, !map_map. unfold shaped. reflexivity.
Qed.

Lemma ln2_gt0 : 0 < ln 2. Proof. rewrite <- ln_1. apply ln_increasing; lra. Qed.
Lemma gauss_at_cutoff c : c <> 0 -> gauss_gain c c = 1 / 16.
Proof.
  intros Hc. unfold gauss_gain. cbv zeta. pose proof ln2_gt0 as P.
  assert (Q : sqrt (2 * ln 2) * sqrt (2 * ln 2) = 2 * ln 2) by (apply sqrt_sqrt; lra).
  assert (S : 0 < sqrt (2 * ln 2)) by (apply sqrt_lt_R0; lra).
  replace (- c ^ 2 / (2 * (c / (2 * sqrt (2 * ln 2))) ^ 2)) with (- (2 * (sqrt (2 * ln 2) * sqrt (2 * ln 2)))) by (field; lra).
  rewrite Q. rewrite exp_Ropp. replace (2 * (2 * ln 2)) with (ln 2 + ln 2 + ln 2 + ln 2) by ring.
  rewrite !exp_plus, exp_ln by lra. lra.
Qed.
Lemma gauss_at_0 c : gauss_gain c 0 = 1.
Proof. unfold gauss_gain. cbv zeta. replace (- 0 ^ 2 / _) with 0 by (unfold Rdiv; ring). apply exp_0. Qed.
Lemma exp_at_cutoff c : 0 < c -> exp_gain c c = 1 / 2.
Proof.
  intros Hc. unfold exp_gain. cbv zeta. pose proof ln2_gt0 as P.
  assert (Q : sqrt (2 * ln 2 ^ 2) * sqrt (2 * ln 2 ^ 2) = 2 * ln 2 ^ 2) by (apply sqrt_sqrt; nra).
  assert (S : 0 < sqrt (2 * ln 2 ^ 2)) by (apply sqrt_lt_R0; nra).
  replace (c ^ 2 / (2 * (c / sqrt (2 * ln 2 ^ 2)) ^ 2)) with (sqrt (2 * ln 2 ^ 2) * sqrt (2 * ln 2 ^ 2) / 2) by (field; lra).
  rewrite Q. replace (2 * ln 2 ^ 2 / 2) with (Rsqr (ln 2)) by (unfold Rsqr; field). rewrite sqrt_Rsqr by lra.
  rewrite exp_Ropp, exp_ln by lra. lra.
Qed.
Lemma gauss_le_1 c f : c <> 0 -> 0 < gauss_gain c f <= 1.
Proof.
  intros Hc. unfold gauss_gain. cbv zeta. split; [apply exp_pos|]. set (w := c / _).
  assert (w <> 0).
  { unfold w, Rdiv. apply Rmult_integral_contrapositive_currified; [exact Hc|]. apply Rinv_neq_0_compat.
    pose proof ln2_gt0. assert (0 < sqrt (2 * ln 2)) by (apply sqrt_lt_R0; lra). lra. }
  assert (0 < / (2 * w ^ 2)) by (apply Rinv_0_lt_compat; nra).
  assert (- f ^ 2 / (2 * w ^ 2) <= 0) by (unfold Rdiv; nra).
  destruct H1 as [H1| ->]; [|rewrite exp_0; lra]. left. rewrite <- exp_0. apply exp_increasing. exact H1.
Qed.
Lemma nth_scal a l j : nth j (map (Cmul a) l) C0 = (a * nth j l C0)%C.
Proof. revert j; induction l as [|z l IH]; intros [|j]; cbn [map nth]; try apply IH; try reflexivity; cring. Qed.
(** a tone on the grid is scaled by the gain at its frequency *)
Lemma filtered_tone H fs N k y : (k < N)%nat -> filtered H fs (tone N k) y -> y = map (Cscal (H (bin_freq fs N k))) (tone N k).
Proof.
  intros Hk [HL HE]. rewrite tone_length in HL, HE.
  assert (E : dft y = dft (map (Cmul (RtoC (H (bin_freq fs N k)))) (tone N k))).
  { rewrite dft_scal. apply nth_list_ext; [rewrite map_length, !dft_length, tone_length; exact HL|].
    rewrite dft_length, HL. intros j Hj. rewrite HE by exact Hj.
    rewrite nth_scal. rewrite dft_tone by assumption.
    destruct (k =? j)%nat eqn:B; [apply Nat.eqb_eq in B; subst j|]; cring. }
  rewrite <- (idft_dft y), E, idft_dft. apply map_ext. intros z. cring.
Qed.

(** ** Dispersion compensation *)
Lemma cd_H_length N fs D L wl : length (cd_H N fs D L wl) = N.
Proof. unfold cd_H, linspace. rewrite !map_length, seq_length. reflexivity. Qed.
Lemma cd_H_in N fs D L wl z : In z (cd_H N fs D L wl) -> Cnorm2 z = 1.
Proof. unfold cd_H. intros H. apply in_map_iff in H as [w [<- _]]. apply Cnorm2_expi. Qed.
Lemma cd_H_add N fs D1 D2 L wl : cmul_list (cd_H N fs D1 L wl) (cd_H N fs D2 L wl) = cd_H N fs (D1 + D2) L wl.
Proof.
  unfold cd_H, cmul_list. induction (linspace (-1) 1 N) as [|w l IH]; [reflexivity|]. cbn [map combine].
  rewrite IH. apply (f_equal2 cons); [|reflexivity]. cbn [fst snd]. rewrite <- Cexpi_add. f_equal. unfold Rdiv. ring.
Qed.
Lemma cd_H_zero N fs D L wl z : D * L = 0 -> In z (cd_H N fs D L wl) -> z = C1.
Proof.
  unfold cd_H. intros H0 H. apply in_map_iff in H as [w [<- _]].
  replace (/ 2 * (PI * fs * w) ^ 2 * (D * wl ^ 2 / (299792458 * 2 * PI)) * L) with ((D * L) * (/ 2 * (PI * fs * w) ^ 2 * (wl ^ 2 / (299792458 * 2 * PI)))) by (unfold Rdiv; ring).
  rewrite H0, Rmult_0_l, Ropp_0. apply Cexpi_0.
Qed.
Lemma cd_whole E fs N L D wl : N = 0%nat \/ N = length E ->
  exists out, CDcomp E fs N L D wl = Ok (out, cd_H (length E) fs D L wl) /\ out = idft (cmul_list (dft E) (ifftshift (cd_H (length E) fs D L wl))).
Proof.
  intros HN. unfold CDcomp. replace (if (N =? 0)%nat then length E else N) with (length E) by (destruct HN as [-> | ->]; [reflexivity|destruct (length E); reflexivity]).
  rewrite Nat.eqb_refl. eexists. split; [reflexivity|]. f_equal. apply shifted_mul. rewrite dft_length, cd_H_length. reflexivity.
Qed.
Lemma cd_energy E fs N L D wl out H : N = 0%nat \/ N = length E -> CDcomp E fs N L D wl = Ok (out, H) ->
  length out = length E /\ lenergy out = lenergy E.
Proof.
  intros HN HC. destruct (cd_whole E fs N L D wl HN) as [o [E1 E2]]. rewrite E1 in HC. injection HC as <- <-. subst o.
  set (h := ifftshift _). assert (Lh : length h = length E) by (unfold h; rewrite ifftshift_length; apply cd_H_length).
  assert (Lc : length (cmul_list (dft E) h) = length E) by (rewrite cmul_list_length; rewrite dft_length; [reflexivity|symmetry; exact Lh]).
  split; [rewrite idft_length; exact Lc|].
  destruct (Nat.eq_dec (length E) 0) as [Z|Z].
  { destruct E; [reflexivity|discriminate Z]. }
  pose proof (parseval_inv (cmul_list (dft E) h)) as P. rewrite cmul_list_energy, parseval, Lc in P.
  - assert (0 < INR (length E)) by (apply lt_0_INR; lia). apply (Rmult_eq_reg_l (INR (length E))); lra.
  - rewrite dft_length. symmetry. exact Lh.
  - intros z Hz. apply (cd_H_in (length E) fs D L wl). unfold h, ifftshift in Hz. apply roll_In in Hz. exact Hz.
Qed.

Lemma cd_inverse E fs N L D wl out H : N = 0%nat \/ N = length E -> CDcomp E fs N L D wl = Ok (out, H) ->
  exists H', CDcomp out fs N L (- D) wl = Ok (E, H').
Proof.
  intros HN HC. destruct (cd_energy _ _ _ _ _ _ _ _ HN HC) as [HL _].
  destruct (cd_whole E fs N L D wl HN) as [o [E1 E2]]. rewrite E1 in HC. injection HC as <- <-.
  destruct (cd_whole o fs N L (- D) wl) as [o' [F1 F2]]; [rewrite HL; exact HN|].
  rewrite F1, HL in *. eexists. apply f_equal. apply f_equal2; [|reflexivity]. rewrite F2, E2, dft_idft, cmul_list_assoc.
  set (n := length E) in *.
  assert (Q : cmul_list (ifftshift (cd_H n fs D L wl)) (ifftshift (cd_H n fs (- D) L wl)) = ifftshift (cd_H n fs 0 L wl)).
  { unfold ifftshift. rewrite !cd_H_length. rewrite <- roll_cmul by (rewrite !cd_H_length; reflexivity). rewrite cd_H_add. rewrite Rplus_opp_r. reflexivity. }
  rewrite Q. rewrite cmul_list_one; [apply idft_dft| |].
  - rewrite ifftshift_length, cd_H_length, dft_length. reflexivity.
  - intros z Hz. apply roll_In in Hz. eapply cd_H_zero; [|exact Hz]. ring.
Qed.
(** block processing needs blocks of a multiple of four samples *)
Lemma cd_none E fs N L D wl : N <> 0%nat -> N <> length E -> (N mod 4 <> 0)%nat -> (N <= 2 * length E)%nat -> (7 < N)%nat ->
  CDcomp E fs N L D wl = Err ValueError.
Proof.
  intros H0 H1 H4 HB HN7. unfold CDcomp. replace (N =? 0)%nat with false by lia. replace (N =? length E)%nat with false by lia.
  pose proof (Nat.div_mod N 4 ltac:(lia)) as D4. pose proof (Nat.mod_upper_bound N 4 ltac:(lia)) as M4.
  pose proof (Nat.div_mod N 2 ltac:(lia)) as D2. pose proof (Nat.mod_upper_bound N 2 ltac:(lia)) as M2.
  set (n := (N / 2)%nat) in *. set (zp := (N / 4)%nat) in *. cbv zeta.
  destruct (n =? 0)%nat eqn:En; [lia|].
  assert (B1 : (1 <= length E / n)%nat) by (apply Nat.div_le_lower_bound; lia).
  destruct (length E / n)%nat as [|B]; [lia|]. cbn [seq foldM].
  unfold cd_block. fold n. fold zp. cbv zeta.
  assert (E0 : slice_set (Z.of_nat zp) (- Z.of_nat zp) (pyslice (Z.of_nat 0 * Z.of_nat n) (Z.of_nat 0 * Z.of_nat n + Z.of_nat n) E) (repeat C0 N) = Err ValueError).
  { unfold slice_set. rewrite repeat_length. rewrite clipz_neg, clipz_pos by lia. cbv zeta.
    assert (LP : length (pyslice (Z.of_nat 0 * Z.of_nat n) (Z.of_nat 0 * Z.of_nat n + Z.of_nat n) E) = n).
    { change (Z.of_nat 0 * Z.of_nat n)%Z with 0%Z. unfold pyslice. rewrite firstn_length, skipn_length, !clipz_pos by lia. lia. }
    set (p := pyslice _ _ E) in *. clearbody p. destruct (length p =? _)%nat eqn:EL; [lia|]. destruct p as [|a [|b p]]; cbn [length] in LP; try lia; reflexivity. }
  rewrite E0. reflexivity.
Qed.
