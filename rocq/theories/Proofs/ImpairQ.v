(** Proofs about the discrete Fourier transform of delayed signals and tones, and about dispersion. *)
From Coq Require Import List ZArith Arith Bool Reals Lra Lia.
From Coq Require Import ZifyBool ZifyNat ZifyN.
From Verif Require Import Common.Py Common.Cplx Common.SumX Common.Angle Common.ListX Common.Dft
  Model.Helpers Model.Phase Model.Impair Spec.Seq Spec.Equal Spec.ImpairSpec Proofs.ImpairP.
Import ListNotations.
Local Open Scope R_scope.

Definition unmod (N : nat) (d : Z) (i : nat) : nat := Z.to_nat ((Z.of_nat i - d) mod Z.of_nat N).
Lemma unmod_lt N d i : (0 < N)%nat -> (unmod N d i < N)%nat.
Proof. intros H. unfold unmod. pose proof (Z.mod_pos_bound (Z.of_nat i - d) (Z.of_nat N) ltac:(lia)). lia. Qed.
Lemma unmod_eq N d i : (0 < N)%nat -> exists q : Z, (Z.of_nat (unmod N d i) = Z.of_nat i - d + q * Z.of_nat N)%Z.
Proof.
  intros H. exists (- ((Z.of_nat i - d) / Z.of_nat N))%Z. unfold unmod.
  pose proof (Z.mod_pos_bound (Z.of_nat i - d) (Z.of_nat N) ltac:(lia)) as B.
  rewrite Z2Nat.id by lia. pose proof (Z.div_mod (Z.of_nat i - d) (Z.of_nat N) ltac:(lia)). lia.
Qed.

Lemma nth_of_error {A} (l : list A) i a d : nth_error l i = Some a -> nth i l d = a.
Proof. revert i. induction l as [|x l IH]; intros [|i] H; cbn in *; try discriminate; [congruence|auto]. Qed.
Lemma roll_nth' {A} d (l : list A) i z : (i < length l)%nat -> nth i (roll d l) z = nth (unmod (length l) d i) l z.
Proof.
  intros H. assert (H2 : (unmod (length l) d i < length l)%nat) by (apply unmod_lt; lia).
  destruct (nth_error l (unmod (length l) d i)) as [a|] eqn:E; [|apply nth_error_None in E; lia].
  rewrite (nth_of_error _ _ _ z E). apply nth_of_error. rewrite roll_nth by exact H. exact E.
Qed.
Lemma roll_map {A B} d (f : A -> B) l : roll d (map f l) = map f (roll d l).
Proof. unfold roll. rewrite map_length, map_app, skipn_map, firstn_map. reflexivity. Qed.
Lemma Csum_roll d l : Csum (roll d l) = Csum l.
Proof. unfold roll. rewrite Csum_app. replace (Csum (skipn _ l) + Csum (firstn _ l))%C with
  (Csum (firstn (Z.to_nat (- d mod Z.of_nat (length l))) l) + Csum (skipn (Z.to_nat (- d mod Z.of_nat (length l))) l))%C by ring.
  rewrite <- Csum_app, firstn_skipn. reflexivity. Qed.

Lemma csum_unmod N d g : csum N (fun i => g (unmod N d i)) = csum N g.
Proof.
  unfold csum. rewrite <- (Csum_roll d (map g (seq 0 N))), roll_map. f_equal.
  rewrite <- (map_map (unmod N d) g). f_equal.
  apply nth_error_ext_lt; [rewrite roll_length, map_length; reflexivity|].
  intros i Hi. rewrite map_length, seq_length in Hi.
  rewrite roll_nth by (rewrite seq_length; exact Hi). rewrite seq_length.
  rewrite nth_error_map_seq by exact Hi. fold (unmod N d i).
  rewrite nth_error_seq by (apply unmod_lt; lia). reflexivity.
Qed.

(** the transform of a delayed signal *)
Lemma dft_roll d x k : (k < length x)%nat ->
  nth k (dft (roll d x)) C0 = (nth k (dft x) C0 * Cexpi (- (2 * PI * INR k * IZR d / INR (length x))))%C.
Proof.
  intros Hk. assert (HN : 0 < INR (length x)) by (apply lt_0_INR; lia).
  rewrite dft_nth by (rewrite roll_length; exact Hk). rewrite roll_length.
  rewrite dft_nth by exact Hk. rewrite <- csum_scal_r.
  rewrite <- (csum_unmod (length x) d (fun n => (nth n x C0 * Cexpi (- (2 * PI * INR k * INR n / INR (length x))) * Cexpi (- (2 * PI * INR k * IZR d / INR (length x))))%C)).
  apply csum_ext. intros n Hn. rewrite roll_nth' by exact Hn.
  replace (nth (unmod (length x) d n) x C0 * Cexpi (- (2 * PI * INR k * INR (unmod (length x) d n) / INR (length x))) * Cexpi (- (2 * PI * INR k * IZR d / INR (length x))))%C
    with (nth (unmod (length x) d n) x C0 * (Cexpi (- (2 * PI * INR k * INR (unmod (length x) d n) / INR (length x))) * Cexpi (- (2 * PI * INR k * IZR d / INR (length x)))))%C by ring.
  rewrite <- Cexpi_add. apply f_equal. apply Cexpi_turns.
  destruct (unmod_eq (length x) d n ltac:(lia)) as [q Hq].
  exists (Z.of_nat k * q)%Z. rewrite mult_IZR, <- INR_IZR_INZ.
  rewrite (INR_IZR_INZ (unmod (length x) d n)), Hq, plus_IZR, minus_IZR, mult_IZR, <- !INR_IZR_INZ. field. lra.
Qed.

Lemma idft_length_eq (a b : list C) : a = b -> idft a = idft b.
Proof. congruence. Qed.

Lemma roll_cmul d a b : length a = length b -> roll d (cmul_list a b) = cmul_list (roll d a) (roll d b).
Proof.
  intros H. apply nth_list_ext; [rewrite roll_length, !cmul_list_length, ?roll_length; auto|].
  - rewrite roll_length, !roll_length. exact H.
  - rewrite roll_length, cmul_list_length by exact H. intros k Hk.
    rewrite roll_nth' by (rewrite cmul_list_length; auto). rewrite cmul_list_length by exact H.
    assert (B : (unmod (length a) d k < length a)%nat) by (apply unmod_lt; lia).
    rewrite !cmul_list_nth by (rewrite ?roll_length; lia).
    rewrite !roll_nth' by lia. rewrite <- H. reflexivity.
Qed.
Lemma roll_comm {A} a b (l : list A) : roll a (roll b l) = roll b (roll a l).
Proof. rewrite !roll_roll, Z.add_comm. reflexivity. Qed.

Lemma idft_scal c x : idft (map (Cmul c) x) = map (Cmul c) (idft x).
Proof.
  apply nth_list_ext; [rewrite idft_length, !map_length, idft_length; reflexivity|].
  rewrite idft_length, map_length. intros k Hk.
  rewrite idft_nth by (rewrite map_length; exact Hk). rewrite map_length.
  rewrite (nth_indep _ C0 (c * C0)%C) by (rewrite map_length, idft_length; exact Hk).
  rewrite (map_nth (Cmul c)), idft_nth by exact Hk.
  replace (Cscal (/ INR (length x)) (csum (length x) (fun n => (nth n (map (Cmul c) x) C0 * Cexpi (2 * PI * INR n * INR k / INR (length x)))%C)))
    with (c * Cscal (/ INR (length x)) (csum (length x) (fun n => (nth n x C0 * Cexpi (2 * PI * INR n * INR k / INR (length x)))%C)))%C; [reflexivity|].
  rewrite (csum_ext _ (fun n => (nth n (map (Cmul c) x) C0 * _)%C) (fun n => (c * (nth n x C0 * Cexpi (2 * PI * INR n * INR k / INR (length x))))%C)).
  - rewrite csum_scal. cring.
  - intros n Hn. rewrite (nth_indep _ C0 (c * C0)%C) by (rewrite map_length; exact Hn). rewrite (map_nth (Cmul c)). ring.
Qed.

(** multiplying the spectrum by a linear phase delays the signal *)
Definition lin_const (N : nat) (d : Z) : C := Cexpi (- (2 * PI * IZR d * (INR (N / 2) / INR N - / 2))).
Lemma lin_const_even N d : (1 <= N)%nat -> Nat.Even N -> lin_const N d = C1.
Proof.
  intros HL [q Hq]. unfold lin_const. rewrite Hq, Nat.mul_comm, Nat.div_mul by lia.
  rewrite mult_INR. change (INR 2) with 2. rewrite <- Cexpi_0. apply f_equal.
  assert (0 < INR q) by (apply lt_0_INR; lia). field. lra.
Qed.
Lemma lin_const_opp N d : lin_const N (- d) = Cconj (lin_const N d).
Proof. unfold lin_const. rewrite <- Cexpi_neg, opp_IZR. apply f_equal. ring. Qed.
Lemma linear_phase d s fs x : (1 <= length x)%nat -> s * fs = - IZR d ->
  unspectrum (cmul_list (spectrum x) (phases s (pmd_omega fs (length x)))) = map (Cmul (lin_const (length x) d)) (roll d x).
Proof.
  intros HL Hs. unfold lin_const. set (N := length x). set (h := (N / 2)%nat).
  assert (HN : 0 < INR N) by (apply lt_0_INR; unfold N; lia).
  set (c := Cexpi (- (2 * PI * IZR d * (INR h / INR N - / 2)))).
  assert (K : ifftshift (cmul_list (spectrum x) (phases s (pmd_omega fs N))) = map (Cmul c) (dft (roll d (ifftshift x)))).
  { assert (Lp : length (phases s (pmd_omega fs N)) = N) by (unfold phases; rewrite map_length; apply pmd_omega_length).
    unfold ifftshift at 1. rewrite cmul_list_length by (rewrite spectrum_length, Lp; reflexivity). rewrite spectrum_length.
    rewrite roll_cmul by (rewrite spectrum_length, Lp; reflexivity). fold N. fold h.
    replace (roll (- Z.of_nat h) (spectrum x)) with (dft (ifftshift x)).
    2:{ unfold spectrum, fftshift. rewrite dft_length, ifftshift_length. fold N. fold h.
        rewrite roll_roll, Z.add_opp_diag_l, roll_0. reflexivity. }
    apply nth_list_ext.
    { rewrite cmul_list_length, map_length, !dft_length, roll_length; [reflexivity|].
      rewrite dft_length, ifftshift_length, roll_length. symmetry. exact Lp. }
    rewrite cmul_list_length by (rewrite dft_length, ifftshift_length, roll_length; symmetry; exact Lp).
    rewrite dft_length, ifftshift_length. fold N. intros k Hk.
    rewrite cmul_list_nth; [|rewrite dft_length, ifftshift_length; exact Hk|rewrite roll_length, Lp; exact Hk].
    rewrite (nth_indep (map _ _) C0 (c * C0)%C) by (rewrite map_length, dft_length, roll_length, ifftshift_length; exact Hk).
    rewrite (map_nth (Cmul c)). rewrite dft_roll by (rewrite ifftshift_length; exact Hk). rewrite ifftshift_length. fold N.
    rewrite roll_nth' by (rewrite Lp; exact Hk). rewrite Lp.
    assert (B : (unmod N (- Z.of_nat h) k < N)%nat) by (apply unmod_lt; lia).
    unfold phases. rewrite (nth_indep (map (fun w => Cexpi (w * s)) _) C0 (Cexpi (0 * s))) by (rewrite map_length, pmd_omega_length; exact B).
    rewrite (map_nth (fun w => Cexpi (w * s))). unfold pmd_omega. rewrite nth_map_seq by exact B.
    replace (c * (nth k (dft (ifftshift x)) C0 * Cexpi (- (2 * PI * INR k * IZR d / INR N))))%C
      with (nth k (dft (ifftshift x)) C0 * (c * Cexpi (- (2 * PI * INR k * IZR d / INR N))))%C by ring.
    apply f_equal. unfold c. rewrite <- Cexpi_add. apply Cexpi_turns.
    destruct (unmod_eq N (- Z.of_nat h) k ltac:(lia)) as [q Hq].
    exists (- d * q)%Z.
    rewrite (INR_IZR_INZ (unmod N (- Z.of_nat h) k)), Hq, plus_IZR, minus_IZR, opp_IZR, !mult_IZR, <- !INR_IZR_INZ.
    rewrite opp_IZR.
    replace (2 * PI * (- fs / 2 + (INR k - - INR h + IZR q * INR N) * (fs / INR N)) * s)
      with (2 * PI * (- / 2 + (INR k - - INR h + IZR q * INR N) / INR N) * (s * fs)) by (field; lra).
    rewrite Hs. field. lra. }
  unfold unspectrum. rewrite K, idft_scal, idft_dft.
  unfold fftshift. rewrite map_length, roll_length, ifftshift_length, roll_map. f_equal.
  unfold ifftshift. rewrite (roll_comm d), roll_roll, Z.add_opp_diag_r, roll_0. reflexivity.
Qed.

Lemma rotate_zero x y : length x = length y -> rotate_field [x; y] 0 = Ok [x; y].
Proof.
  intros H. cbn [rotate_field]. rewrite cos_0, sin_0, Ropp_0. apply f_equal.
  apply (f_equal2 cons); [|apply (f_equal2 cons); [|reflexivity]].
  - revert y H. induction x as [|a x IH]; intros [|b y] H; cbn in H; try discriminate; [reflexivity|].
    unfold zipc in *. cbn [combine map fst snd]. apply (f_equal2 cons); [cring|apply IH; congruence].
  - revert y H. induction x as [|a x IH]; intros [|b y] H; cbn in H; try discriminate; [reflexivity|].
    unfold zipc in *. cbn [combine map fst snd]. apply (f_equal2 cons); [cring|apply IH; congruence].
Qed.

Lemma PMD_delay x y t fs d : length x = length y -> (1 <= length x)%nat -> t * fs = 2 * IZR d ->
  exists c x' y', apply_PMD_to_field [x; y] 0 t fs = Ok [map (Cmul c) x'; map (Cmul (Cconj c)) y'] /\
    Cnorm2 c = 1 /\ (Nat.Even (length x) -> c = C1) /\ delayed d x x' /\ delayed (- d) y y'.
Proof.
  intros H HL Ht. unfold apply_PMD_to_field. cbn [row_length].
  pose proof (pmd_omega_length fs (length x)) as Hom.
  destruct (pmd_eq x y 0 t (pmd_omega fs (length x))) as (u & v & E1 & Hu & Hv & a & b & E2 & Ha & Hb & E3); [lia|lia|].
  rewrite rotate_zero in E1 by (rewrite !spectrum_length; exact H). injection E1 as <- <-.
  rewrite Ropp_0, rotate_zero in E2.
  2:{ rewrite !cmul_list_length; unfold phases; rewrite ?map_length; lia. }
  injection E2 as <- <-. rewrite E3.
  rewrite (linear_phase d); [|exact HL|lra].
  assert (A : unspectrum (cmul_list (spectrum y) (phases (t / 2) (pmd_omega fs (length x)))) = map (Cmul (lin_const (length x) (- d))) (roll (- d) y))
    by (rewrite H; apply linear_phase; [lia|rewrite opp_IZR; lra]).
  rewrite A, lin_const_opp.
  exists (lin_const (length x) d), (roll d x), (roll (- d) y). split; [reflexivity|]. split; [apply Cnorm2_expi|].
  split; [apply lin_const_even; exact HL|]. split; apply roll_delayed.
Qed.

(** ** dispersion *)
Definition disp1 (fs D L wl0 : R) (row : list C) : list C := fftshift (disp_row fs D L wl0 row).
Lemma disp_H_length N fs D L wl0 : length (disp_H N fs D L wl0) = N.
Proof. unfold disp_H, fftfreq. rewrite !map_length, seq_length. reflexivity. Qed.
Lemma disp_row_length fs D L wl0 row : length (disp_row fs D L wl0 row) = length row.
Proof.
  unfold disp_row. rewrite idft_length, cmul_list_length; rewrite dft_length, ifftshift_length; [reflexivity|].
  rewrite disp_H_length. reflexivity.
Qed.
Lemma disp1_length fs D L wl0 row : length (disp1 fs D L wl0 row) = length row.
Proof. unfold disp1. rewrite fftshift_length. apply disp_row_length. Qed.

Lemma disp_H_add N fs D1 D2 L wl0 : cmul_list (disp_H N fs D1 L wl0) (disp_H N fs D2 L wl0) = disp_H N fs (D1 + D2) L wl0.
Proof.
  unfold disp_H, cmul_list. induction (fftfreq N (1 / fs)) as [|f l IH]; [reflexivity|]. cbn [map combine fst snd].
  apply (f_equal2 cons); [|exact IH]. rewrite <- Cexpi_add. apply f_equal. unfold Rdiv. ring.
Qed.
Lemma disp_H_zero N fs D L wl0 z : D * L = 0 -> In z (disp_H N fs D L wl0) -> z = C1.
Proof.
  intros HDL H. apply in_map_iff in H. destruct H as (f & <- & _). rewrite <- Cexpi_0. apply f_equal.
  replace (/ 2 * (f * PI * 2) ^ 2 * (D * wl0 ^ 2 / (299792458 * PI * 2)) * L)
    with (/ 2 * (f * PI * 2) ^ 2 * (wl0 ^ 2 / (299792458 * PI * 2)) * (D * L)) by (unfold Rdiv; ring).
  rewrite HDL. ring.
Qed.
Lemma disp_H_norm N fs D L wl0 z : In z (disp_H N fs D L wl0) -> Cnorm2 z = 1.
Proof. intros H. apply in_map_iff in H. destruct H as (f & <- & _). apply Cnorm2_expi. Qed.

Lemma disp1_zero fs D L wl0 row : D * L = 0 -> disp1 fs D L wl0 row = row.
Proof.
  intros H. unfold disp1, disp_row. rewrite cmul_list_one.
  - rewrite idft_dft, fftshift_ifftshift. reflexivity.
  - rewrite dft_length, ifftshift_length, disp_H_length. reflexivity.
  - intros z. apply disp_H_zero. exact H.
Qed.
Lemma disp1_add fs D1 D2 L wl0 row : disp1 fs D2 L wl0 (disp1 fs D1 L wl0 row) = disp1 fs (D1 + D2) L wl0 row.
Proof.
  unfold disp1 at 1 3. unfold disp_row at 1. rewrite disp1_length.
  replace (dft (ifftshift (disp1 fs D1 L wl0 row))) with (cmul_list (dft (ifftshift row)) (disp_H (length row) fs D1 L wl0)).
  2:{ unfold disp1. rewrite ifftshift_fftshift. unfold disp_row. rewrite dft_idft. reflexivity. }
  rewrite cmul_list_assoc, disp_H_add. reflexivity.
Qed.
Lemma disp1_energy fs D L wl0 row : lenergy (disp1 fs D L wl0 row) = lenergy row.
Proof.
  unfold disp1, fftshift. rewrite lenergy_roll.
  destruct (Nat.eq_dec (length row) 0) as [Z|Z].
  { apply length_zero_iff_nil in Z. subst row. reflexivity. }
  assert (HN : 0 < INR (length row)) by (apply lt_0_INR; lia).
  pose proof (parseval_inv (cmul_list (dft (ifftshift row)) (disp_H (length row) fs D L wl0))) as P.
  rewrite cmul_list_length in P by (rewrite dft_length, ifftshift_length, disp_H_length; reflexivity).
  rewrite dft_length, ifftshift_length in P.
  rewrite cmul_list_energy in P; [|rewrite dft_length, ifftshift_length, disp_H_length; reflexivity|intros z; apply disp_H_norm].
  rewrite parseval, ifftshift_length in P. unfold ifftshift at 2 in P. rewrite lenergy_roll in P.
  unfold disp_row. apply (Rmult_eq_reg_l (INR (length row))); lra.
Qed.

(** a tone on the frequency grid *)
Lemma tone_length N k : length (tone N k) = N.
Proof. unfold tone. rewrite map_length, seq_length. reflexivity. Qed.
Lemma tone_nth N k n : (n < N)%nat -> nth n (tone N k) C0 = Cexpi (2 * PI * INR k * INR n / INR N).
Proof. intros H. unfold tone. exact (nth_map_seq (fun n => Cexpi (2 * PI * INR k * INR n / INR N)) N n C0 H). Qed.
Lemma tone_roll N k d : (1 <= N)%nat -> roll d (tone N k) = map (Cmul (Cexpi (- (2 * PI * INR k * IZR d / INR N)))) (tone N k).
Proof.
  intros HN. assert (HN' : 0 < INR N) by (apply lt_0_INR; lia).
  apply nth_list_ext; [rewrite roll_length, map_length; reflexivity|]. rewrite roll_length, tone_length. intros n Hn.
  rewrite roll_nth' by (rewrite tone_length; exact Hn). rewrite tone_length.
  rewrite tone_nth by (apply unmod_lt; lia).
  rewrite (nth_indep _ C0 (Cexpi (- (2 * PI * INR k * IZR d / INR N)) * C0)%C) by (rewrite map_length, tone_length; exact Hn).
  rewrite (map_nth (Cmul _)), tone_nth by exact Hn. rewrite <- Cexpi_add. apply Cexpi_turns.
  destruct (unmod_eq N d n ltac:(lia)) as [q Hq]. exists (Z.of_nat k * q)%Z.
  rewrite (INR_IZR_INZ (unmod N d n)), Hq, plus_IZR, minus_IZR, !mult_IZR, <- !INR_IZR_INZ. field. lra.
Qed.
Lemma dft_tone N k j : (k < N)%nat -> (j < N)%nat -> nth j (dft (tone N k)) C0 = if (k =? j)%nat then RtoC (INR N) else C0.
Proof.
  intros Hk Hj. rewrite dft_nth by (rewrite tone_length; exact Hj). rewrite tone_length.
  assert (HN : 0 < INR N) by (apply lt_0_INR; lia).
  rewrite <- (dft_orth N k j Hk Hj). apply csum_ext. intros n Hn. rewrite tone_nth by exact Hn.
  rewrite <- Cexpi_add. apply f_equal. field. lra.
Qed.
Lemma dft_scal c x : dft (map (Cmul c) x) = map (Cmul c) (dft x).
Proof.
  rewrite <- (dft_idft (map (Cmul c) (dft x))). apply f_equal. rewrite idft_scal, idft_dft. reflexivity.
Qed.
Lemma cmul_list_const c a b : length a = length b ->
  (forall j, (j < length a)%nat -> nth j a C0 = C0 \/ nth j b C0 = c) -> cmul_list a b = map (Cmul c) a.
Proof.
  revert b. induction a as [|x a IH]; intros [|y b] HL H; cbn in HL; try discriminate; [reflexivity|].
  unfold cmul_list in *. cbn [combine map fst snd]. apply (f_equal2 cons).
  - destruct (H 0%nat ltac:(cbn; lia)) as [E|E]; cbn in E; rewrite E; ring.
  - apply IH; [congruence|]. intros j Hj. apply (H (S j)). cbn. lia.
Qed.
Lemma disp_H_nth N fs D L wl0 k : (k < N)%nat ->
  nth k (disp_H N fs D L wl0) C0 = Cexpi (- (/ 2 * (IZR (freq_bin N k) / (INR N * (1 / fs)) * PI * 2) ^ 2 * (D * wl0 ^ 2 / (299792458 * PI * 2)) * L)).
Proof. intros H. unfold disp_H, fftfreq. rewrite map_map. exact (nth_map_seq (fun i => Cexpi (- (/ 2 * (IZR (freq_bin N i) / (INR N * (1 / fs)) * PI * 2) ^ 2 * (D * wl0 ^ 2 / (299792458 * PI * 2)) * L))) N k C0 H). Qed.

Lemma disp1_tone N k fs D L wl0 a : (k < N)%nat ->
  disp1 fs D L wl0 (map (Cmul a) (tone N k)) = map (Cmul (nth k (disp_H N fs D L wl0) C0)) (map (Cmul a) (tone N k)).
Proof.
  intros Hk. unfold disp1, disp_row.
  assert (E : ifftshift (map (Cmul a) (tone N k)) = map (Cmul (a * Cexpi (- (2 * PI * INR k * IZR (- Z.of_nat (N / 2)) / INR N)))%C) (tone N k)).
  { unfold ifftshift. rewrite map_length, tone_length, roll_map, tone_roll by lia. rewrite map_map. apply map_ext. intros z. ring. }
  rewrite map_length, tone_length.
  rewrite (cmul_list_const (nth k (disp_H N fs D L wl0) C0)).
  - rewrite idft_scal, idft_dft. unfold fftshift. rewrite map_length, ifftshift_length, roll_map.
    replace (length (map (Cmul a) (tone N k))) with (length (ifftshift (map (Cmul a) (tone N k)))) by apply ifftshift_length.
    fold (fftshift (ifftshift (map (Cmul a) (tone N k)))). rewrite fftshift_ifftshift. reflexivity.
  - rewrite dft_length, ifftshift_length, map_length, tone_length, disp_H_length. reflexivity.
  - rewrite dft_length, ifftshift_length, map_length, tone_length. intros j Hj.
    destruct (Nat.eq_dec k j) as [->|Hne]; [right; reflexivity|left].
    rewrite E, dft_scal.
    rewrite (nth_indep _ C0 ((a * Cexpi (- (2 * PI * INR k * IZR (- Z.of_nat (N / 2)) / INR N))) * C0)%C)
      by (rewrite map_length, dft_length, tone_length; exact Hj).
    rewrite (map_nth (Cmul _)), dft_tone by assumption.
    destruct (Nat.eqb_spec k j); [contradiction|ring].
Qed.

Lemma add_disp2 rows fs D L wl0 : add_dispersion (D2 rows) fs D L wl0 = D2 (fftshift (map (disp1 fs D L wl0) rows)).
Proof. reflexivity. Qed.

Lemma disp_modes rows fs D L wl0 : exists out, add_dispersion (D2 rows) fs D L wl0 = D2 out /\ length out = length rows /\
  forall m row, nth_error rows m = Some row -> exists row',
    add_dispersion (D1 row) fs D L wl0 = D1 row' /\ nth_error out ((m + length rows / 2) mod length rows) = Some row'.
Proof.
  eexists. split; [apply add_disp2|]. split; [rewrite fftshift_length, map_length; reflexivity|].
  intros m row Hm. exists (disp1 fs D L wl0 row). split; [reflexivity|].
  assert (Hl : (m < length rows)%nat) by (apply nth_error_Some_lt in Hm; exact Hm).
  unfold fftshift. rewrite map_length, roll_nth by (rewrite map_length; apply Nat.mod_upper_bound; lia).
  rewrite map_length, nth_error_map.
  replace (Z.to_nat ((Z.of_nat ((m + length rows / 2) mod length rows) - Z.of_nat (length rows / 2)) mod Z.of_nat (length rows))) with m.
  - rewrite Hm. reflexivity.
  - rewrite Nat2Z.inj_mod, Zminus_mod_idemp_l.
    replace (Z.of_nat (m + length rows / 2) - Z.of_nat (length rows / 2))%Z with (Z.of_nat m) by lia.
    rewrite Z.mod_small by lia. lia.
Qed.
Lemma disp_even rows fs D1 D2' L wl0 : Nat.Even (length rows) ->
  match add_dispersion (D2 rows) fs D1 L wl0 with
  | D2 out => add_dispersion (D2 out) fs D2' L wl0 = D2 (map (disp1 fs (D1 + D2') L wl0) rows)
  | _ => False end.
Proof.
  intros [q Hq]. rewrite add_disp2. rewrite add_disp2. apply f_equal.
  unfold fftshift. rewrite !map_length. rewrite <- roll_map, roll_roll. rewrite roll_length, !map_length.
  rewrite Hq, Nat.mul_comm, Nat.div_mul by lia.
  rewrite map_map. rewrite (map_ext _ (disp1 fs (D1 + D2') L wl0)) by (intros; apply disp1_add).
  set (l := map _ rows).
  assert (Hl : length l = (2 * q)%nat) by (unfold l; rewrite map_length; exact Hq).
  apply nth_error_ext_lt; [apply roll_length|]. intros i Hi. rewrite roll_length in Hi.
  rewrite roll_nth by exact Hi. f_equal.
  assert (((Z.of_nat i - (Z.of_nat q + Z.of_nat q)) mod Z.of_nat (length l) = Z.of_nat i)%Z) as ->; [|lia].
  symmetry. apply (Z.mod_unique _ _ (-1)); lia.
Qed.
