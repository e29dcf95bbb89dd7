(** Proofs about raised cosines and pulse shaping. *)
From Coq Require Import Reals List Lra Lia ZArith Arith Psatz Bool.
From Coq Require Import ZifyBool ZifyNat ZifyN.
From Verif Require Import Common.Py Common.Cplx Common.SumX Common.Angle Common.ListX Common.Dft
  Model.Helpers Model.Phase Model.Impair Model.Filters Spec.ImpairSpec Spec.FilterSpec Proofs.ImpairQ Proofs.ImpairS Proofs.ImpairT.
Import ListNotations.
Local Open Scope R_scope.

(** ** Raised cosine *)
Section Rcos.
Variables beta T : R.
Hypothesis Hb : 0 < beta <= 1.
Hypothesis HT : 0 < T.
Let a := (1 - beta) / (2 * T).
Let b := (1 + beta) / (2 * T).
Lemma iT : 0 < / T. Proof. apply Rinv_0_lt_compat; exact HT. Qed.
Lemma a_eq : a = (1 - beta) / 2 * / T. Proof. unfold a. field. lra. Qed.
Lemma b_eq : b = (1 + beta) / 2 * / T. Proof. unfold b. field. lra. Qed.
Lemma ab : 0 <= a /\ a < b /\ a + b = / T /\ b <= / T.
Proof. rewrite a_eq, b_eq. pose proof iT. repeat split; nra. Qed.
Lemma rc_form f : a <= Rabs f <= b -> rcos_at beta T f = T / 2 * (1 + cos (PI * T / beta * (Rabs f - a))).
Proof.
  intros H. unfold rcos_at. fold a b. destruct (Rle_dec (Rabs f) a) as [h|h].
  - replace (Rabs f - a) with 0 by lra. rewrite Rmult_0_r, cos_0. field.
  - destruct (Rle_dec (Rabs f) b) as [h'|h']; [reflexivity|lra].
Qed.
Lemma rc_flat f : Rabs f <= a -> rcos_at beta T f = T.
Proof. intros H. unfold rcos_at. fold a. destruct (Rle_dec (Rabs f) a); [reflexivity|contradiction]. Qed.
Lemma rc_off f : b <= Rabs f -> rcos_at beta T f = 0.
Proof.
  intros H. pose proof ab. destruct (Req_dec (Rabs f) b) as [E|N].
  - rewrite rc_form by lra. rewrite E. replace (PI * T / beta * (b - a)) with PI.
    + rewrite cos_PI. lra.
    + rewrite a_eq, b_eq. field. lra.
  - unfold rcos_at. fold a b. destruct (Rle_dec (Rabs f) a); [lra|]. destruct (Rle_dec (Rabs f) b); [lra|reflexivity].
Qed.
Lemma rc_even f : rcos_at beta T (- f) = rcos_at beta T f.
Proof. unfold rcos_at. rewrite Rabs_Ropp. reflexivity. Qed.
Lemma rc_range f : 0 <= rcos_at beta T f <= T.
Proof.
  unfold rcos_at. destruct (Rle_dec _ _); [lra|]. destruct (Rle_dec _ _); [|lra].
  match goal with |- context [cos ?x] => pose proof (COS_bound x) end. nra.
Qed.
Lemma rc_zero : rcos_at beta T 0 = T.
Proof. apply rc_flat. rewrite Rabs_R0. apply ab. Qed.
(** the two shifts that overlap *)
Lemma rc_pair f : 0 <= f <= / T -> rcos_at beta T f + rcos_at beta T (f - / T) = T.
Proof.
  intros H. pose proof ab as [A0 [A1 [A2 A3]]].
  replace (f - / T) with (- (/ T - f)) by ring. rewrite rc_even.
  assert (E1 : Rabs f = f) by (apply Rabs_right; lra). assert (E2 : Rabs (/ T - f) = / T - f) by (apply Rabs_right; lra).
  destruct (Rle_dec f a) as [h|h].
  - rewrite rc_flat, rc_off by lra. ring.
  - destruct (Rle_dec b f) as [h'|h'].
    + rewrite rc_off, rc_flat by lra. ring.
    + rewrite !rc_form by lra. rewrite E1, E2.
      replace (PI * T / beta * (/ T - f - a)) with (PI - PI * T / beta * (f - a)).
      * rewrite Rtrigo_facts.cos_pi_minus. lra.
      * rewrite a_eq. field. lra.
Qed.
Lemma rc_far f : / T <= Rabs f -> rcos_at beta T f = 0.
Proof. intros H. apply rc_off. pose proof ab. lra. Qed.
Lemma rc_nyquist : nyquist (rcos_at beta T) T T.
Proof.
  intros f. pose proof iT as HI.
  assert (G : exists k0 : Z, 0 <= f + IZR k0 / T <= / T).
  { exists (- Int_part (f * T))%Z. destruct (base_Int_part (f * T)) as [I1 I2]. rewrite opp_IZR.
    set (z := IZR (Int_part (f * T))) in *.
    replace (f + - z / T) with ((f * T - z) * / T) by (field; lra). split; nra. }
  destruct G as [k0 G]. set (g := f + IZR k0 / T) in *. exists k0.
  assert (S : forall k : Z, f + IZR k / T = g + IZR (k - k0) * / T) by (intros k; unfold g; rewrite minus_IZR; field; lra).
  rewrite !S. replace (k0 - 1 - k0)%Z with (-1)%Z by lia. replace (k0 - k0)%Z with 0%Z by lia. replace (k0 + 1 - k0)%Z with 1%Z by lia.
  split.
  - replace (g + -1 * / T) with (g - / T) by ring. replace (g + 0 * / T) with g by ring.
    rewrite (rc_far (g + 1 * / T)) by (rewrite Rabs_right; lra). pose proof (rc_pair g G). lra.
  - intros k Hk. rewrite S. apply rc_far. destruct Hk as [Hk|Hk].
    + assert (IZR (k - k0) <= -2) by (apply IZR_le; lia). rewrite Rabs_left; nra.
    + assert (2 <= IZR (k - k0)) by (apply IZR_le; lia). rewrite Rabs_right; nra.
Qed.
End Rcos.

Lemma rrcos_sqr f beta T : T <> 0 -> beta <> 0 -> 0 < beta <= 1 -> 0 < T ->
  exists rc rr, rcos_freq f beta T = Ok rc /\ rrcos_freq f beta T = Ok rr /\ length rr = length f /\
    map (fun v => v ^ 2) rr = rc /\ Forall (fun v => 0 <= v) rr.
Proof.
  intros N1 N2 Hb HT. unfold rrcos_freq, rcos_freq.
  destruct (Req_EM_T T 0); [lra|]. destruct (Req_EM_T beta 0); [lra|].
  exists (map (rcos_at beta T) f), (map sqrt (map (rcos_at beta T) f)).
  split; [reflexivity|]. split; [reflexivity|]. rewrite !map_length. split; [reflexivity|]. rewrite !map_map. split.
  - apply map_ext. intros v. cbn. rewrite Rmult_1_r. apply sqrt_sqrt. apply (rc_range beta T HT).
  - apply Forall_forall. intros v Hv. apply in_map_iff in Hv as [u [<- _]]. apply sqrt_pos.
Qed.

(** ** The spectral pulse-shaping filter *)
Lemma fftfreq_nth N d k : (k < N)%nat -> nth k (fftfreq N d) 0 = IZR (freq_bin N k) / (INR N * d).
Proof. intros H. unfold fftfreq. apply (nth_map_seq (fun i => IZR (freq_bin N i) / (INR N * d))). exact H. Qed.
Lemma bin_freq_eq fs N k : (k < N)%nat -> nth k (map (fun v => v * fs) (fftfreq N 1)) 0 = bin_freq fs N k.
Proof.
  intros H. assert (HN : 0 < INR N) by (apply lt_0_INR; lia).
  rewrite (nth_indep _ 0 (0 * fs)) by (unfold fftfreq; rewrite !map_length, seq_length; exact H).
  rewrite (map_nth (fun v => v * fs)), fftfreq_nth by exact H. rewrite freq_bin_val by exact H. unfold bin_freq.
  destruct (2 * k <? N)%nat; rewrite ?minus_IZR, <- ?INR_IZR_INZ; field; lra.
Qed.
Lemma shaping_freq_ok sig fs T beta : 0 < beta <= 1 -> 0 < T -> sig <> [] ->
  exists out, rrcos_pulseshaping_freq sig fs T beta = Ok out /\
    filtered (fun f => sqrt (rcos_at beta T f / T)) fs sig out.
Proof.
  intros Hb HT Hne. set (N := length sig). assert (HN : (0 < N)%nat) by (unfold N; destruct sig; [congruence|cbn; lia]).
  unfold rrcos_pulseshaping_freq, rrcos_freq, rcos_freq. fold N.
  destruct (Req_EM_T T 0); [lra|]. destruct (Req_EM_T beta 0); [lra|]. cbn [bind].
  set (fr := map (fun v => v * fs) (fftfreq N 1)).
  assert (Lf : length fr = N) by (unfold fr, fftfreq; rewrite !map_length, seq_length; reflexivity).
  assert (M : rmaxl (map sqrt (map (rcos_at beta T) fr)) = Ok (sqrt T)).
  { apply rmaxl_spec. split.
    - rewrite map_map. apply in_map_iff. exists 0. split; [rewrite rc_zero by assumption; reflexivity|].
      assert (E : nth 0 fr 0 = 0).
      { unfold fr. rewrite bin_freq_eq by exact HN. unfold bin_freq. destruct (2 * 0 <? N)%nat eqn:B; [cbn; ring|lia]. }
      rewrite <- E. apply nth_In. lia.
    - intros x Hx. rewrite map_map in Hx. apply in_map_iff in Hx as [u [<- _]]. apply sqrt_le_1_alt. apply (rc_range beta T HT). }
  rewrite M. cbn [bind]. eexists. split; [reflexivity|].
  set (h := map (fun v => RtoC (v / sqrt T)) (map sqrt (map (rcos_at beta T) fr))).
  assert (Lh : length h = N) by (unfold h; rewrite !map_length; exact Lf).
  assert (Lc : length (cmul_list (dft sig) h) = N) by (rewrite cmul_list_length; rewrite dft_length; [reflexivity|fold N; lia]).
  split; [rewrite idft_length; exact Lc|]. intros k Hk. fold N in Hk. rewrite dft_idft.
  rewrite cmul_list_nth by (rewrite ?dft_length; fold N; lia).
  assert (Eh : nth k h C0 = RtoC (sqrt (rcos_at beta T (bin_freq fs N k) / T))).
  { unfold h. rewrite !map_map. rewrite (nth_indep _ C0 ((fun x => RtoC (sqrt (rcos_at beta T x) / sqrt T)) 0)) by (rewrite map_length; lia).
    rewrite (map_nth (fun x => RtoC (sqrt (rcos_at beta T x) / sqrt T))). unfold fr. rewrite bin_freq_eq by exact Hk.
    rewrite sqrt_div_alt by exact HT. reflexivity. }
  rewrite Eh. fold N. cring.
Qed.

(** sums over an index split as r + j n *)
Lemma csum_split os n f : csum (os * n) f = csum n (fun r => csum os (fun j => f (r + j * n)%nat)).
Proof.
  induction os as [|os IH].
  - cbn [Nat.mul]. rewrite csum_0. symmetry. apply csum_zero. intros. apply csum_0.
  - replace (S os * n)%nat with (os * n + n)%nat by lia. rewrite csum_app, IH, <- csum_add. apply csum_ext. intros r Hr.
    rewrite csum_S. apply f_equal. apply f_equal. lia.
Qed.
Lemma csum_split' os n f : (1 <= os)%nat -> csum (os * n) f = csum n (fun m => csum os (fun j => f (os * m + j)%nat)).
Proof.
  intros Ho. induction n as [|n IH].
  - replace (os * 0)%nat with 0%nat by lia. reflexivity.
  - replace (os * S n)%nat with (os * n + os)%nat by lia. rewrite csum_app, IH, csum_S. reflexivity.
Qed.
Lemma dft_stuffed os x y k : (1 <= os)%nat -> (1 <= length x)%nat -> zero_stuffed os x y -> (k < length y)%nat ->
  nth k (dft y) C0 = nth (k mod length x) (dft x) C0.
Proof.
  intros Ho Hx [HL HE] Hk. set (n := length x) in *.
  assert (Hm : (k mod n < n)%nat) by (apply Nat.mod_upper_bound; lia).
  rewrite dft_nth by exact Hk. rewrite dft_nth by exact Hm. fold n. rewrite HL.
  rewrite csum_split' by exact Ho. apply csum_ext. intros m Hmn.
  rewrite (csum_single os _ 0%nat).
  - rewrite HE by (rewrite HL; nia). replace (os * m + 0)%nat with (m * os)%nat by lia.
    rewrite Nat.mod_mul, Nat.div_mul by lia. cbn [Nat.eqb]. apply f_equal. apply Cexpi_turns.
    exists (- (Z.of_nat (k / n) * Z.of_nat m))%Z.
    rewrite opp_IZR, mult_IZR, <- !INR_IZR_INZ, !mult_INR.
    rewrite (Nat.div_mod k n) at 1 by lia. rewrite plus_INR, mult_INR. field.
    split; apply not_0_INR; lia.
  - lia.
  - intros j Hj Hj0. rewrite HE by (rewrite HL; nia).
    replace ((os * m + j) mod os)%nat with j by (rewrite Nat.add_comm, Nat.mul_comm, Nat.mod_add, Nat.mod_small; lia).
    destruct (j =? 0)%nat eqn:B; [lia|]. cring.
Qed.

Section NoISI.
Variables (beta T fs : R) (os n : nat).
Hypothesis Hb : 0 < beta <= 1.
Hypothesis HT : 0 < T.
Hypothesis Hfs : fs * T = INR os.
Hypothesis Ho : (2 <= os)%nat.
Hypothesis Hn : (1 <= n)%nat.
Lemma step_eq : fs / INR (os * n) * INR n = / T.
Proof.
  assert (INR os <> 0) by (apply not_0_INR; lia). assert (INR n <> 0) by (apply not_0_INR; lia).
  rewrite mult_INR. assert (fs = INR os / T) by (rewrite <- Hfs; field; lra). rewrite H1. field. repeat split; lra.
Qed.
Lemma step_pos : 0 < fs / INR (os * n).
Proof.
  pose proof step_eq as E. assert (0 < INR n) by (apply lt_0_INR; lia). pose proof (iT T HT). nra.
Qed.
Lemma alias_sum r : (r < n)%nat -> rsum os (fun j => rcos_at beta T (bin_freq fs (os * n) (r + j * n))) = T.
Proof.
  intros Hr. pose proof step_eq as E. pose proof step_pos as P. set (s := fs / INR (os * n)) in *.
  assert (0 < INR n) by (apply lt_0_INR; lia).
  destruct os as [|[|o]]; [lia|lia|]. rewrite rsum_S, rsum_Sl.
  assert (R0 : bin_freq fs (S (S o) * n) (r + 0 * n) = INR r * s).
  { unfold bin_freq. destruct (2 * (r + 0 * n) <? S (S o) * n)%nat eqn:B; [|nia]. replace (r + 0 * n)%nat with r by lia. reflexivity. }
  assert (RL : bin_freq fs (S (S o) * n) (r + S o * n) = INR r * s - / T).
  { unfold bin_freq. destruct (2 * (r + S o * n) <? S (S o) * n)%nat eqn:B; [nia|]. fold s. rewrite <- E.
    rewrite plus_INR, !mult_INR, !S_INR. ring. }
  rewrite R0, RL. rewrite rsum_zero.
  - rewrite Rplus_0_r. apply rc_pair; try assumption. assert (INR r < INR n) by (apply lt_INR; lia). pose proof (pos_INR r). rewrite <- E. nra.
  - intros j Hj. apply rc_far; [assumption|assumption|]. rewrite <- E. unfold bin_freq. fold s.
    destruct (2 * (r + S j * n) <? S (S o) * n)%nat.
    + assert (INR n <= INR (r + S j * n)) by (apply le_INR; nia). rewrite Rabs_right; nra.
    + assert (INR (r + S j * n) + INR n <= INR (S (S o) * n)) by (rewrite <- plus_INR; apply le_INR; nia).
      rewrite Rabs_left; nra.
Qed.

Lemma no_isi x up y1 y2 t : length x = n -> zero_stuffed os x up ->
  rrcos_pulseshaping up fs T beta None = Ok y1 -> rrcos_pulseshaping y1 fs T beta None = Ok y2 -> every os y2 t ->
  t = map (Cscal (/ INR os)) x.
Proof.
  intros Hx Hup H1 H2 Ht. cbn [rrcos_pulseshaping] in H1, H2.
  assert (Lup : length up = (os * n)%nat) by (destruct Hup as [L _]; rewrite L, Hx; reflexivity).
  assert (Pn : (0 < os * n)%nat) by nia.
  assert (Nup : up <> []) by (destruct up; [cbn in Lup; lia|discriminate]).
  destruct (shaping_freq_ok up fs T beta Hb HT Nup) as [o1 [E1 [L1 F1]]]. rewrite E1 in H1. injection H1 as <-.
  assert (Ny1 : o1 <> []) by (destruct o1; [cbn in L1; lia|discriminate]).
  destruct (shaping_freq_ok o1 fs T beta Hb HT Ny1) as [o2 [E2 [L2 F2]]]. rewrite E2 in H2. injection H2 as <-.
  rewrite L1, Lup in *.
  destruct Ht as [Lt Et]. rewrite L2 in Lt.
  assert (Lt' : length t = n).
  { rewrite Lt. replace (os * n + os - 1)%nat with ((os - 1) + n * os)%nat by lia. rewrite Nat.div_add by lia. rewrite Nat.div_small by lia. lia. }
  apply nth_list_ext; [rewrite map_length; lia|]. intros m Hm. rewrite Lt' in Hm. rewrite Et by lia.
  assert (P1 : INR os <> 0) by (apply not_0_INR; lia). assert (P2 : INR n <> 0) by (apply not_0_INR; lia).
  rewrite <- (idft_dft o2). rewrite idft_nth by (rewrite dft_length, L2; nia). rewrite dft_length, L2.
  rewrite csum_split.
  rewrite (csum_ext n _ (fun r => (nth r (dft x) C0 * Cexpi (2 * PI * INR r * INR m / INR n))%C)).
  - rewrite (nth_indep _ C0 (Cscal (/ INR os) C0)) by (rewrite map_length; lia). rewrite (map_nth (Cscal (/ INR os))).
    rewrite <- (idft_dft x) at 1. rewrite idft_nth by (rewrite dft_length; lia). rewrite dft_length, Hx.
    generalize (csum n (fun r => (nth r (dft x) C0 * Cexpi (2 * PI * INR r * INR m / INR n))%C)). intros z.
    rewrite mult_INR. apply C_eq; unfold Cscal; cbn [fst snd]; field; split; assumption.
  - intros r Hr.
    rewrite (csum_ext os _ (fun j => (RtoC (rcos_at beta T (bin_freq fs (os * n) (r + j * n)) / T) *
       (nth r (dft x) C0 * Cexpi (2 * PI * INR r * INR m / INR n)))%C)).
    + rewrite csum_scal_r, csum_RtoC. unfold Rdiv at 1.
      rewrite (rsum_ext os _ (fun j => / T * rcos_at beta T (bin_freq fs (os * n) (r + j * n)))) by (intros; unfold Rdiv; ring).
      rewrite rsum_scal, alias_sum by exact Hr. rewrite Rinv_l by lra. cring.
    + intros j Hj. assert (Hk : (r + j * n < os * n)%nat) by nia.
      rewrite F2, F1 by exact Hk. rewrite (dft_stuffed os x up) by (rewrite ?Lup; try assumption; lia).
      replace ((r + j * n) mod length x)%nat with r by (rewrite Hx, Nat.mod_add, Nat.mod_small; lia).
      set (v := rcos_at beta T (bin_freq fs (os * n) (r + j * n)) / T).
      assert (V0 : 0 <= v).
      { unfold v, Rdiv. apply Rmult_le_pos; [apply (rc_range beta T HT)|left; apply iT; exact HT]. }
      replace (Cexpi (2 * PI * INR (r + j * n) * INR (os * m) / INR (os * n))) with (Cexpi (2 * PI * INR r * INR m / INR n)).
      * rewrite <- (sqrt_sqrt v V0) at 3. cring.
      * symmetry. apply Cexpi_turns. exists (Z.of_nat (j * m)). rewrite <- INR_IZR_INZ, plus_INR, !mult_INR. field. split; assumption.
Qed.
End NoISI.

(** ** The symbol-level wrapper *)
Lemma conv_impulse (b : list R) i : (1 <= length b)%nat -> (i < 2)%nat -> ((length b - 1) / 2 + i < length b)%nat ->
  nth i (conv_same [C1; C0] b) C0 = RtoC (nth ((length b - 1) / 2 + i) b 0).
Proof.
  intros H1 Hi H2. unfold conv_same. rewrite nth_map_seq by exact Hi. cbn [length]. rewrite !csum_S, csum_0.
  set (off := ((length b - 1) / 2)%nat) in *.
  destruct (0 <=? i + off)%nat eqn:B1; [|lia]. replace (i + off - 0)%nat with (off + i)%nat by lia.
  destruct (off + i <? length b)%nat eqn:B2; [|lia]. cbn [nth].
  destruct (1 <=? i + off)%nat; [|cring]. destruct (i + off - 1 <? length b)%nat; cring.
Qed.
Lemma times_nth fs i : (i < 1001)%nat -> nth i (filter_times 1001 fs) 0 = (INR i - INR 500) / fs.
Proof. intros H. unfold filter_times. rewrite nth_map_seq by exact H. reflexivity. Qed.
Lemma times_length fs n : length (filter_times n fs) = n.
Proof. unfold filter_times. rewrite map_length, seq_length. reflexivity. Qed.
(** the two middle samples of the response to an impulse, up to a common factor *)
Lemma shaped_impulse fs T beta : T <> 0 -> beta <> 0 -> fs <> 0 ->
  exists out m, rrcos_pulseshaping [C1; C0] fs T beta (Some 1001%nat) = Ok out /\ (forall t, In t (filter_times 1001 fs) -> rrcos_time_at beta T (- (1 / fs)) t <= m) /\ nth 0 out C0 = RtoC (rrcos_time_at beta T (- (1 / fs)) 0 / m) /\ nth 1 out C0 = RtoC (rrcos_time_at beta T (- (1 / fs)) (1 / fs) / m).
Proof.
  intros HT Hb Hfs. unfold rrcos_pulseshaping, rrcos_time.
  destruct (Req_EM_T T 0); [contradiction|]. destruct (Req_EM_T beta 0); [contradiction|].
  assert (G0 : getn (filter_times 1001 fs) 0 = Ok ((INR 0 - INR 500) / fs)) by reflexivity.
  assert (G1 : getn (filter_times 1001 fs) 1 = Ok ((INR 1 - INR 500) / fs)) by reflexivity.
  rewrite G0. cbn [bind]. rewrite G1. cbn [bind]. clear G0 G1.
  replace ((INR 0 - INR 500) / fs - (INR 1 - INR 500) / fs) with (- (1 / fs)) by (generalize (INR 500); intros; cbn [INR]; field; assumption).
  set (h := map (rrcos_time_at beta T (- (1 / fs))) (filter_times 1001 fs)).
  assert (Lh : length h = 1001%nat) by (unfold h; rewrite map_length, times_length; reflexivity).
  destruct (rmaxl h) as [m|e] eqn:M.
  2:{ exfalso. destruct h as [|x h']; [discriminate Lh|]. cbn in M. discriminate. }
  cbn [bind]. apply rmaxl_spec in M. destruct M as [_ M].
  eexists. exists m. split; [reflexivity|]. split.
  { intros t Ht. apply M. unfold h. apply in_map. exact Ht. }
  assert (N : forall i, (i < 2)%nat -> nth i (conv_same [C1; C0] (map (fun v => v / m) h)) C0 = RtoC (rrcos_time_at beta T (- (1 / fs)) (INR i / fs) / m)).
  { intros i Hi. assert (Lm : length (map (fun v => v / m) h) = 1001%nat) by (rewrite map_length; exact Lh).
    rewrite conv_impulse by (rewrite ?Lm; try change ((1001 - 1) / 2)%nat with 500%nat; lia).
    rewrite Lm. change ((1001 - 1) / 2)%nat with 500%nat.
    rewrite (nth_indep _ 0 (0 / m)) by lia. rewrite (map_nth (fun v => v / m)).
    unfold h. rewrite (nth_indep _ 0 (rrcos_time_at beta T (- (1 / fs)) 0)) by (rewrite map_length, times_length; lia).
    rewrite map_nth, times_nth by lia. rewrite plus_INR. replace (INR 500 + INR i - INR 500) with (INR i) by ring. reflexivity. }
  split.
  - rewrite N by lia. cbn [INR]. replace (0 / fs) with 0 by (unfold Rdiv; ring). reflexivity.
  - rewrite N by lia. reflexivity.
Qed.
Lemma fb_width : exists o1 o2, rrcos_pulseshaping_sig [C1; C0] 4 2 1 None = Ok o1 /\ rrcos_pulseshaping [C1; C0] 4 (1 / 2) 1 (Some 1001%nat) = Ok o2 /\ o1 <> o2.
Proof.
  unfold rrcos_pulseshaping_sig.
  destruct (shaped_impulse 4 2 1 ltac:(lra) ltac:(lra) ltac:(lra)) as [o1 [m1 [E1 [B1 [A1 A1']]]]].
  destruct (shaped_impulse 4 (1 / 2) 1 ltac:(lra) ltac:(lra) ltac:(lra)) as [o2 [m2 [E2 [B2 [A2 A2']]]]].
  exists o1, o2. split; [exact E1|]. split; [exact E2|]. intros E. subst o2.
  rewrite A1 in A2. rewrite A1' in A2'. injection A2 as Q0. injection A2' as Q1.
  assert (Z0 : In 0 (filter_times 1001 4)).
  { assert (E : nth 500 (filter_times 1001 4) 0 = 0) by (rewrite times_nth by lia; unfold Rdiv; ring).
    rewrite <- E. apply nth_In. rewrite times_length. lia. }
  specialize (B1 0 Z0). specialize (B2 0 Z0).
  pose proof PI_RGT_0 as HP.
  assert (X10 : rrcos_time_at 1 2 (- (1 / 4)) 0 = 2 / PI).
  { unfold rrcos_time_at. replace (Rabs (- (1 / 4)) / 4) with (1 / 16) by (rewrite Rabs_Ropp, Rabs_right; lra).
    rewrite (Rabs_right (2 / (4 * 1))), Rabs_R0 by lra. destruct (Rlt_dec _ _) as [h|_].
    - rewrite Rabs_left in h; lra.
    - destruct (Rlt_dec 0 (1 / 16)); [field; lra|lra]. }
  assert (X11 : rrcos_time_at 1 2 (- (1 / 4)) (1 / 4) = 2 / PI * (4 / 3 * cos (PI / 4))).
  { unfold rrcos_time_at. replace (Rabs (- (1 / 4)) / 4) with (1 / 16) by (rewrite Rabs_Ropp, Rabs_right; lra).
    rewrite (Rabs_right (2 / (4 * 1))), (Rabs_right (1 / 4)) by lra. destruct (Rlt_dec _ _) as [h|_].
    - rewrite Rabs_left in h; lra.
    - destruct (Rlt_dec (1 / 4) (1 / 16)); [lra|].
      replace (PI * (1 / 4) / 2 * (1 - 1)) with 0 by field. rewrite sin_0.
      replace (PI * (1 / 4) / 2 * (1 + 1)) with (PI / 4) by field. field. lra. }
  assert (X20 : rrcos_time_at 1 (1 / 2) (- (1 / 4)) 0 = 8 / PI).
  { unfold rrcos_time_at. replace (Rabs (- (1 / 4)) / 4) with (1 / 16) by (rewrite Rabs_Ropp, Rabs_right; lra).
    rewrite (Rabs_right (1 / 2 / (4 * 1))), Rabs_R0 by lra. destruct (Rlt_dec _ _) as [h|_].
    - rewrite Rabs_left in h; lra.
    - destruct (Rlt_dec 0 (1 / 16)); [field; lra|lra]. }
  assert (X21 : rrcos_time_at 1 (1 / 2) (- (1 / 4)) (1 / 4) = 8 / PI * (1 / 3)).
  { unfold rrcos_time_at. replace (Rabs (- (1 / 4)) / 4) with (1 / 16) by (rewrite Rabs_Ropp, Rabs_right; lra).
    rewrite (Rabs_right (1 / 2 / (4 * 1))), (Rabs_right (1 / 4)) by lra. destruct (Rlt_dec _ _) as [h|_].
    - rewrite Rabs_right in h; lra.
    - destruct (Rlt_dec (1 / 4) (1 / 16)); [lra|].
      replace (PI * (1 / 4) / (1 / 2) * (1 - 1)) with 0 by field. rewrite sin_0.
      replace (PI * (1 / 4) / (1 / 2) * (1 + 1)) with PI by field. rewrite cos_PI. field. lra. }
  rewrite X10, X20 in Q0. rewrite X11, X21 in Q1. rewrite X10 in B1. rewrite X20 in B2.
  assert (0 < 2 / PI) by (apply Rdiv_lt_0_compat; lra). assert (0 < 8 / PI) by (apply Rdiv_lt_0_compat; lra).
  set (q1 := 2 / PI / m1) in *.
  assert (P1 : 0 < q1) by (apply Rdiv_lt_0_compat; lra).
  replace (2 / PI * (4 / 3 * cos (PI / 4)) / m1) with (q1 * (4 / 3 * cos (PI / 4))) in Q1 by (unfold q1, Rdiv; ring).
  replace (8 / PI * (1 / 3) / m2) with (8 / PI / m2 * (1 / 3)) in Q1 by (unfold Rdiv; ring).
  rewrite <- Q0 in Q1.
  assert (Q2 : 4 / 3 * cos (PI / 4) = 1 / 3) by nra.
  assert (C4 : cos (PI / 4) * cos (PI / 4) = 1 / 2).
  { rewrite cos_PI4. assert (0 < sqrt 2) by (apply sqrt_lt_R0; lra). pose proof (sqrt_sqrt 2 ltac:(lra)).
    replace (1 / sqrt 2 * (1 / sqrt 2)) with (1 / (sqrt 2 * sqrt 2)) by (field; lra). rewrite H2. reflexivity. }
  nra.
Qed.
