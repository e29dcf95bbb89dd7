(** The discrete Fourier transform as an exact finite sum (np.fft / scipy.fft), the half-length
    shifts, and their inversion and energy laws. *)
From Coq Require Import Reals List Lra Lia ZArith Arith.
From Coq Require Import ZifyBool ZifyNat ZifyN.
From Verif Require Import Common.Cplx Common.SumX Common.Angle Common.Py Common.ListX.
Import ListNotations.
Local Open Scope R_scope.

(** fft(x): X[k] = sum_n x[n] exp(-2i pi k n / N) *)
Definition dft (x : list C) : list C :=
  let N := length x in
  map (fun k => csum N (fun n => (nth n x C0 * Cexpi (- (2 * PI * INR k * INR n / INR N)))%C)) (seq 0 N).

(** ifft(X): x[n] = 1/N sum_k X[k] exp(2i pi k n / N) *)
Definition idft (x : list C) : list C :=
  let N := length x in
  map (fun n => Cscal (/ INR N) (csum N (fun k => (nth k x C0 * Cexpi (2 * PI * INR k * INR n / INR N))%C))) (seq 0 N).

(** fftshift / ifftshift along one axis *)
Definition fftshift {A} (l : list A) : list A := roll (Z.of_nat (length l / 2)) l.
Definition ifftshift {A} (l : list A) : list A := roll (- Z.of_nat (length l / 2)) l.

(** fftfreq(n, d): 0, 1, ..., (n-1)//2, -(n//2), ..., -1, all divided by (n d) *)
Definition freq_bin (n i : nat) : Z :=
  if (i <? (n + 1) / 2)%nat then Z.of_nat i else (Z.of_nat i - Z.of_nat n)%Z.
Definition fftfreq (n : nat) (d : R) : list R := map (fun i => IZR (freq_bin n i) / (INR n * d)) (seq 0 n).

Lemma dft_length x : length (dft x) = length x.
Proof. unfold dft. rewrite map_length, seq_length. reflexivity. Qed.
Lemma idft_length x : length (idft x) = length x.
Proof. unfold idft. rewrite map_length, seq_length. reflexivity. Qed.

Lemma nth_map_seq {A} (f : nat -> A) N k d : (k < N)%nat -> nth k (map f (seq 0 N)) d = f k.
Proof.
  intros H. rewrite (nth_indep _ d (f 0%nat)) by (rewrite map_length, seq_length; exact H).
  rewrite map_nth. rewrite seq_nth by exact H. reflexivity.
Qed.
Lemma dft_nth x k : (k < length x)%nat ->
  nth k (dft x) C0 = csum (length x) (fun n => (nth n x C0 * Cexpi (- (2 * PI * INR k * INR n / INR (length x))))%C).
Proof. intros H. unfold dft. apply (nth_map_seq (fun k => csum (length x) (fun n => (nth n x C0 * Cexpi (- (2 * PI * INR k * INR n / INR (length x))))%C))). exact H. Qed.
Lemma idft_nth x k : (k < length x)%nat ->
  nth k (idft x) C0 = Cscal (/ INR (length x)) (csum (length x) (fun n => (nth n x C0 * Cexpi (2 * PI * INR n * INR k / INR (length x)))%C)).
Proof. intros H. unfold idft. apply (nth_map_seq (fun k => Cscal (/ INR (length x)) (csum (length x) (fun n => (nth n x C0 * Cexpi (2 * PI * INR n * INR k / INR (length x)))%C)))). exact H. Qed.

Lemma nth_list_ext (a b : list C) : length a = length b ->
  (forall k, (k < length a)%nat -> nth k a C0 = nth k b C0) -> a = b.
Proof. intros HL H. apply (nth_ext a b C0 C0); [exact HL|exact H]. Qed.

Lemma Cmul_integral a b : (a * b)%C = C0 -> a = C0 \/ b = C0.
Proof.
  intros H. assert (E : Cnorm2 a * Cnorm2 b = 0) by (rewrite <- Cnorm2_mul, H; apply Cnorm2_0).
  apply Rmult_integral in E. destruct E as [E|E]; [left|right]; apply Cnorm2_zero; exact E.
Qed.

(** a full turn sampled at equal distances sums to zero *)
Lemma expi_sum_zero N th : turns (th * INR N) -> ~ turns th -> csum N (fun k => Cexpi (th * INR k)) = C0.
Proof.
  intros H1 H2.
  set (S := csum N (fun k => Cexpi (th * INR k))).
  assert (E : (S * (Cexpi th - C1))%C = C0).
  { assert (A : csum N (fun k => Cexpi (th * INR (Datatypes.S k))) = (S + (Cexpi (th * INR N) - C1))%C).
    { pose proof (csum_Sl N (fun k => Cexpi (th * INR k))) as P. rewrite csum_S in P.
      cbv beta in P. change (INR 0) with 0 in P. rewrite Rmult_0_r, Cexpi_0 in P. fold S in P.
      replace (csum N (fun k => Cexpi (th * INR (Datatypes.S k)))) with
        ((C1 + csum N (fun i => Cexpi (th * INR (Datatypes.S i)))) - C1)%C by ring.
      rewrite <- P. ring. }
    assert (B : csum N (fun k => Cexpi (th * INR (Datatypes.S k))) = (S * Cexpi th)%C).
    { unfold S. rewrite <- csum_scal_r. apply csum_ext. intros i _. rewrite S_INR, Rmult_plus_distr_l, Rmult_1_r.
      apply Cexpi_add. }
    rewrite B in A.
    assert (D : Cexpi (th * INR N) = C1).
    { rewrite <- Cexpi_0. apply Cexpi_turns. rewrite Rminus_0_r. exact H1. }
    rewrite D in A. replace (S * (Cexpi th - C1))%C with (S * Cexpi th - S)%C by ring. rewrite A. ring. }
  apply Cmul_integral in E. destruct E as [E|E]; [exact E|].
  exfalso. apply H2. replace th with (th - 0) by ring. apply Cexpi_eq_turns. rewrite Cexpi_0.
  replace (Cexpi th) with ((Cexpi th - C1) + C1)%C by ring. rewrite E. ring.
Qed.

Lemma int_not_turn N a b : (a < N)%nat -> (b < N)%nat -> a <> b -> ~ turns (2 * PI * (INR a - INR b) / INR N).
Proof.
  intros Ha Hb Hne [k Hk].
  assert (HN : 0 < INR N) by (apply lt_0_INR; lia).
  pose proof PI_RGT_0 as hpi.
  assert (E : INR a - INR b = IZR k * INR N).
  { apply (Rmult_eq_reg_l (2 * PI)); [|lra].
    replace (2 * PI * (IZR k * INR N)) with (IZR k * (2 * PI) * INR N) by ring. rewrite <- Hk. field. lra. }
  rewrite !INR_IZR_INZ in E. rewrite <- minus_IZR, <- mult_IZR in E. apply eq_IZR in E.
  assert (k = 0 \/ k <= -1 \/ 1 <= k)%Z as [h|[h|h]] by lia; nia.
Qed.

Lemma dft_orth N a b : (a < N)%nat -> (b < N)%nat ->
  csum N (fun k => Cexpi (2 * PI * (INR a - INR b) / INR N * INR k)) = if (a =? b)%nat then RtoC (INR N) else C0.
Proof.
  intros Ha Hb. assert (HN : 0 < INR N) by (apply lt_0_INR; lia).
  destruct (Nat.eqb_spec a b) as [->|Hne].
  - rewrite (csum_ext _ _ (fun _ => C1)); [rewrite csum_const; cring|].
    intros i _. replace (2 * PI * (INR b - INR b) / INR N * INR i) with 0 by (field; lra). apply Cexpi_0.
  - apply expi_sum_zero; [|apply int_not_turn; assumption].
    exists (Z.of_nat a - Z.of_nat b)%Z. rewrite minus_IZR, <- !INR_IZR_INZ. field. lra.
Qed.

Lemma nth_pick (x : list C) n N : (n < N)%nat ->
  csum N (fun m => (nth m x C0 * (if (n =? m)%nat then RtoC (INR N) else C0))%C) = Cscal (INR N) (nth n x C0).
Proof.
  intros H. rewrite (csum_single N _ n H).
  - rewrite Nat.eqb_refl. cring.
  - intros i _ Hi. destruct (Nat.eqb_spec n i); [congruence|ring].
Qed.

Lemma idft_dft x : idft (dft x) = x.
Proof.
  apply nth_list_ext; [rewrite idft_length; apply dft_length|].
  rewrite idft_length, dft_length. intros n Hn.
  assert (HN : 0 < INR (length x)) by (apply lt_0_INR; lia).
  rewrite idft_nth by (rewrite dft_length; exact Hn). rewrite dft_length.
  rewrite (csum_ext _ _ (fun k => csum (length x) (fun m =>
     (nth m x C0 * Cexpi (2 * PI * (INR n - INR m) / INR (length x) * INR k))%C))).
  2:{ intros k Hk. rewrite dft_nth by exact Hk. rewrite <- csum_scal_r. apply csum_ext. intros m Hm.
      replace (2 * PI * (INR n - INR m) / INR (length x) * INR k)
        with (- (2 * PI * INR k * INR m / INR (length x)) + 2 * PI * INR k * INR n / INR (length x)) by (field; lra).
      rewrite Cexpi_add. ring. }
  rewrite csum_swap.
  rewrite (csum_ext _ _ (fun m => (nth m x C0 * (if (n =? m)%nat then RtoC (INR (length x)) else C0))%C)).
  2:{ intros m Hm. rewrite csum_scal, dft_orth by assumption. reflexivity. }
  rewrite nth_pick by exact Hn. apply C_eq; cbn; field; lra.
Qed.

Lemma dft_idft x : dft (idft x) = x.
Proof.
  apply nth_list_ext; [rewrite dft_length; apply idft_length|].
  rewrite dft_length, idft_length. intros n Hn.
  assert (HN : 0 < INR (length x)) by (apply lt_0_INR; lia).
  rewrite dft_nth by (rewrite idft_length; exact Hn). rewrite idft_length.
  rewrite (csum_ext _ _ (fun k => csum (length x) (fun m =>
     (Cscal (/ INR (length x)) (nth m x C0) * Cexpi (2 * PI * (INR m - INR n) / INR (length x) * INR k))%C))).
  2:{ intros k Hk. rewrite idft_nth by exact Hk.
      replace (Cscal (/ INR (length x)) (csum (length x) (fun n0 => (nth n0 x C0 * Cexpi (2 * PI * INR n0 * INR k / INR (length x)))%C)))
        with (csum (length x) (fun n0 => (nth n0 x C0 * Cexpi (2 * PI * INR n0 * INR k / INR (length x)))%C) * RtoC (/ INR (length x)))%C by cring.
      rewrite <- !csum_scal_r. apply csum_ext. intros m Hm.
      replace (2 * PI * (INR m - INR n) / INR (length x) * INR k)
        with (2 * PI * INR m * INR k / INR (length x) + - (2 * PI * INR n * INR k / INR (length x))) by (field; lra).
      rewrite Cexpi_add. cring. }
  rewrite csum_swap.
  rewrite (csum_ext _ _ (fun m => (RtoC (/ INR (length x)) * (nth m x C0 * (if (n =? m)%nat then RtoC (INR (length x)) else C0)))%C)).
  2:{ intros m Hm. rewrite csum_scal, dft_orth by assumption. rewrite Nat.eqb_sym. destruct (n =? m)%nat; cring. }
  rewrite csum_scal, nth_pick by exact Hn. apply C_eq; cbn; field; lra.
Qed.

(** energy of a list of samples *)
Definition lenergy (x : list C) : R := Rsum (map Cnorm2 x).

Lemma list_as_map {A} (x : list A) d : x = map (fun k => nth k x d) (seq 0 (length x)).
Proof.
  apply (nth_ext _ _ d d); [rewrite map_length, seq_length; reflexivity|].
  intros n Hn. symmetry. apply (nth_map_seq (fun k => nth k x d)). exact Hn.
Qed.

Lemma lenergy_energy x : lenergy x = energy (length x) (fun k => nth k x C0).
Proof.
  unfold lenergy, energy, rsum. rewrite (list_as_map x C0) at 1. rewrite map_map. reflexivity.
Qed.

Lemma energy_cdot n a : RtoC (energy n a) = cdot n a a.
Proof. unfold energy, cdot. rewrite <- csum_RtoC. apply csum_ext. intros. symmetry. apply Cmul_conj. Qed.

Lemma csum_mul_conj n (f g : nat -> C) : (csum n f * Cconj (csum n g))%C = csum n (fun i => csum n (fun j => (f i * Cconj (g j))%C)).
Proof.
  rewrite <- csum_scal_r. apply csum_ext. intros i _. rewrite csum_conj, <- csum_scal. reflexivity.
Qed.

Lemma RtoC_inj a b : RtoC a = RtoC b -> a = b.
Proof. intros H. apply (f_equal fst) in H. exact H. Qed.

Lemma parseval x : lenergy (dft x) = INR (length x) * lenergy x.
Proof.
  rewrite !lenergy_energy, dft_length. set (N := length x).
  destruct (Nat.eq_dec N 0) as [E|E]; [rewrite E; unfold energy; rewrite rsum_0; cbn; ring|].
  assert (HN : 0 < INR N) by (apply lt_0_INR; lia).
  apply RtoC_inj. rewrite energy_cdot. unfold cdot.
  rewrite (csum_ext _ _ (fun k => csum N (fun a => csum N (fun b =>
     (nth a x C0 * Cconj (nth b x C0) * Cexpi (2 * PI * (INR b - INR a) / INR N * INR k))%C)))).
  2:{ intros k Hk. rewrite dft_nth by exact Hk. fold N. rewrite csum_mul_conj. apply csum_ext. intros a Ha.
      apply csum_ext. intros b Hb. rewrite Cconj_mul.
      replace (2 * PI * (INR b - INR a) / INR N * INR k)
        with (- (2 * PI * INR k * INR a / INR N) + - - (2 * PI * INR k * INR b / INR N)) by (field; lra).
      rewrite Cexpi_add, (Cexpi_neg (- _)). ring. }
  rewrite csum_swap.
  rewrite (csum_ext _ _ (fun a => (RtoC (INR N) * RtoC (Cnorm2 (nth a x C0)))%C)).
  2:{ intros a Ha. rewrite csum_swap.
      rewrite (csum_ext _ _ (fun b => (Cconj (nth a x C0) * (nth a x C0) * (if (a =? b)%nat then RtoC (INR N) else C0))%C)).
      2:{ intros b Hb. rewrite csum_scal, dft_orth by assumption. rewrite Nat.eqb_sym. destruct (Nat.eqb_spec a b) as [->|_]; ring. }
      rewrite (csum_single N _ a Ha); [rewrite Nat.eqb_refl, <- Cmul_conj; ring|].
      intros i _ Hi. destruct (Nat.eqb_spec a i); [congruence|ring]. }
  rewrite csum_scal, csum_RtoC. unfold energy. cring.
Qed.

Lemma parseval_inv x : INR (length x) * lenergy (idft x) = lenergy x.
Proof. rewrite <- (dft_idft x) at 3. rewrite parseval, idft_length. reflexivity. Qed.

Lemma roll_roll {A} a b (l : list A) : roll a (roll b l) = roll (a + b) l.
Proof.
  apply nth_error_ext_lt; [rewrite !roll_length; reflexivity|].
  intros i Hi. rewrite !roll_length in Hi.
  assert (Hn : (0 < Z.of_nat (length l))%Z) by lia.
  rewrite roll_nth by (rewrite roll_length; exact Hi). rewrite roll_length.
  pose proof (Z.mod_pos_bound (Z.of_nat i - a) _ Hn) as Hb.
  rewrite !roll_nth by lia.
  rewrite Z2Nat.id by lia. rewrite Zminus_mod_idemp_l. f_equal. f_equal. f_equal. lia.
Qed.
Lemma roll_0 {A} (l : list A) : roll 0 l = l.
Proof.
  apply nth_error_ext_lt; [apply roll_length|]. intros i Hi. rewrite roll_length in Hi.
  rewrite roll_nth by exact Hi. rewrite Z.sub_0_r, Z.mod_small by lia. rewrite Nat2Z.id. reflexivity.
Qed.
Lemma fftshift_length {A} (l : list A) : length (fftshift l) = length l.
Proof. apply roll_length. Qed.
Lemma ifftshift_length {A} (l : list A) : length (ifftshift l) = length l.
Proof. apply roll_length. Qed.
Lemma fftshift_ifftshift {A} (l : list A) : fftshift (ifftshift l) = l.
Proof. unfold fftshift, ifftshift. rewrite roll_length, roll_roll, Z.add_opp_diag_r. apply roll_0. Qed.
Lemma ifftshift_fftshift {A} (l : list A) : ifftshift (fftshift l) = l.
Proof. unfold fftshift, ifftshift. rewrite roll_length, roll_roll, Z.add_opp_diag_l. apply roll_0. Qed.

Lemma lenergy_app a b : lenergy (a ++ b) = lenergy a + lenergy b.
Proof. unfold lenergy. rewrite map_app. apply Rsum_app. Qed.
Lemma lenergy_roll k x : lenergy (roll k x) = lenergy x.
Proof.
  unfold roll. rewrite lenergy_app, Rplus_comm, <- lenergy_app, firstn_skipn. reflexivity.
Qed.

(** pointwise products *)
Definition cmul_list (a b : list C) : list C := map (fun p => (fst p * snd p)%C) (combine a b).
Lemma cmul_list_length a b : length a = length b -> length (cmul_list a b) = length a.
Proof. intros H. unfold cmul_list. rewrite map_length, combine_length. lia. Qed.
Lemma cmul_list_nth a b k : (k < length a)%nat -> (k < length b)%nat ->
  nth k (cmul_list a b) C0 = (nth k a C0 * nth k b C0)%C.
Proof.
  revert b k. induction a as [|x a IH]; intros [|y b] k Ha Hb; cbn [length] in *; try lia.
  destruct k as [|k]; [reflexivity|]. cbn [cmul_list combine map nth]. apply IH; lia.
Qed.
Lemma cmul_list_energy a b : length a = length b -> (forall z, In z b -> Cnorm2 z = 1) -> lenergy (cmul_list a b) = lenergy a.
Proof.
  revert b. induction a as [|x a IH]; intros [|y b] HL H; cbn [length] in *; try lia; [reflexivity|].
  unfold lenergy, cmul_list. cbn [combine map fst snd]. rewrite !Rsum_cons, Cnorm2_mul, (H y) by (left; reflexivity).
  rewrite Rmult_1_r. f_equal. apply IH; [lia|]. intros z Hz. apply H. right. exact Hz.
Qed.
Lemma cmul_list_assoc a b c : cmul_list (cmul_list a b) c = cmul_list a (cmul_list b c).
Proof.
  revert b c. induction a as [|x a IH]; intros [|y b] [|z c]; try reflexivity.
  unfold cmul_list in *. cbn [combine map fst snd]. apply (f_equal2 cons); [ring|apply IH].
Qed.
Lemma cmul_list_one a b : length a = length b -> (forall z, In z b -> z = C1) -> cmul_list a b = a.
Proof.
  revert b. induction a as [|x a IH]; intros [|y b] HL H; cbn [length] in *; try lia; [reflexivity|].
  unfold cmul_list in *. cbn [combine map fst snd]. rewrite (H y) by (left; reflexivity).
  apply (f_equal2 cons); [ring|]. apply IH; [lia|]. intros z Hz. apply H. right. exact Hz.
Qed.
