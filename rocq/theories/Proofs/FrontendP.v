(** Proofs about the analog front end. *)
From Coq Require Import Reals List Lra Lia ZArith Arith Psatz.
From Coq Require Import ZifyBool ZifyNat ZifyN.
From Verif Require Import Common.Py Common.Cplx Common.SumX Common.Angle Common.ListX Common.Dft
  Model.Helpers Model.Phase Model.Impair Model.Frontend Spec.ImpairSpec Spec.FilterSpec Proofs.ImpairQ Proofs.ImpairT.
Import ListNotations.
Local Open Scope R_scope.

(** ** Second moments of an affine image *)
Lemma Rsum_ext {A} (f g : A -> R) l : (forall x, In x l -> f x = g x) -> Rsum (map f l) = Rsum (map g l).
Proof. intros H. f_equal. apply map_ext_in. exact H. Qed.
Lemma centred_re x : Rsum (map (fun z : C => fst z - fst (sample_mean x)) x) = 0.
Proof.
  destruct x as [|a x]; [reflexivity|]. set (l := a :: x).
  assert (HN : INR (length l) <> 0) by (apply not_0_INR; cbn; lia).
  rewrite (Rsum_ext _ (fun z : C => fst z + (- fst (sample_mean l)))) by (intros; ring).
  rewrite Rsum_map_add, Rsum_map_const. replace (fst (sample_mean l)) with (/ INR (length l) * Rsum (map fst l)) by (unfold sample_mean, Cscal; cbn [fst]; rewrite Re_Csum; reflexivity).
  transitivity (Rsum (map fst l) + INR (length l) * - (/ INR (length l) * Rsum (map fst l))); [reflexivity|field; exact HN].
Qed.
Lemma centred_im x : Rsum (map (fun z : C => snd z - snd (sample_mean x)) x) = 0.
Proof.
  destruct x as [|a x]; [reflexivity|]. set (l := a :: x).
  assert (HN : INR (length l) <> 0) by (apply not_0_INR; cbn; lia).
  rewrite (Rsum_ext _ (fun z : C => snd z + (- snd (sample_mean l)))) by (intros; ring).
  rewrite Rsum_map_add, Rsum_map_const. replace (snd (sample_mean l)) with (/ INR (length l) * Rsum (map snd l)) by (unfold sample_mean, Cscal; cbn [snd]; rewrite Im_Csum; reflexivity).
  transitivity (Rsum (map snd l) + INR (length l) * - (/ INR (length l) * Rsum (map snd l))); [reflexivity|field; exact HN].
Qed.

Definition aff (m : C) (a b c e1 e2 : R) (z : C) : C :=
  (a * (fst z - fst m) + e1, b * (snd z - snd m) + c * (fst z - fst m) + e2).
Lemma aff_mean x a b c e1 e2 : x <> [] -> sample_mean (map (aff (sample_mean x) a b c e1 e2) x) = (e1, e2).
Proof.
  intros Hx. assert (HN : INR (length x) <> 0) by (apply not_0_INR; destruct x; cbn; [congruence|lia]).
  unfold sample_mean at 1. rewrite map_length.
  assert (E : Csum (map (aff (sample_mean x) a b c e1 e2) x) = Cscal (INR (length x)) (e1, e2)).
  { apply C_eq; unfold Cscal; cbn [fst snd].
    - rewrite Re_Csum, map_map. unfold aff. cbn [fst].
      rewrite Rsum_map_add, Rsum_map_const, (Rsum_map_scal a (fun z : C => fst z - fst (sample_mean x))), centred_re. ring.
    - rewrite Im_Csum, map_map. unfold aff. cbn [snd].
      rewrite !Rsum_map_add, Rsum_map_const, (Rsum_map_scal b (fun z : C => snd z - snd (sample_mean x))), centred_im,
        (Rsum_map_scal c (fun z : C => fst z - fst (sample_mean x))), centred_re. ring. }
  rewrite E. apply C_eq; unfold Cscal; cbn [fst snd]; field; exact HN.
Qed.
Lemma aff_varI x a b c e1 e2 : varI (map (aff (sample_mean x) a b c e1 e2) x) = a * a * varI x.
Proof.
  destruct x as [|h t]; [unfold varI; cbn; ring|]. set (l := h :: t).
  unfold varI. rewrite aff_mean by discriminate. rewrite map_map. unfold aff. cbn [fst].
  rewrite <- Rsum_map_scal. apply Rsum_ext. intros; ring.
Qed.
Lemma aff_cov x a b c e1 e2 : covIQ (map (aff (sample_mean x) a b c e1 e2) x) = a * b * covIQ x + a * c * varI x.
Proof.
  destruct x as [|h t]; [unfold covIQ, varI; cbn; ring|]. set (l := h :: t).
  unfold covIQ, varI. rewrite aff_mean by discriminate. rewrite map_map. unfold aff. cbn [fst snd].
  rewrite <- !Rsum_map_scal, <- Rsum_map_add. apply Rsum_ext. intros; ring.
Qed.
Lemma aff_varQ x a b c e1 e2 : varQ (map (aff (sample_mean x) a b c e1 e2) x) = b * b * varQ x + 2 * b * c * covIQ x + c * c * varI x.
Proof.
  destruct x as [|h t]; [unfold covIQ, varI, varQ; cbn; ring|]. set (l := h :: t).
  unfold covIQ, varI, varQ. rewrite aff_mean by discriminate. rewrite map_map. unfold aff. cbn [fst snd].
  rewrite <- !Rsum_map_scal, <- !Rsum_map_add. apply Rsum_ext. intros; ring.
Qed.
Lemma varI_nonneg x : 0 <= varI x.
Proof. unfold varI. apply Rsum_nonneg. intros v Hv. apply in_map_iff in Hv as [z [<- _]]. apply pow2_ge_0. Qed.
Lemma varQ_nonneg x : 0 <= varQ x.
Proof. unfold varQ. apply Rsum_nonneg. intros v Hv. apply in_map_iff in Hv as [z [<- _]]. apply pow2_ge_0. Qed.

(** ** comp_IQ_inbalance *)
Definition iq_rank (x : list C) : Prop := 0 < varI x /\ Rabs (covIQ x) < varI x /\ covIQ x * covIQ x < varI x * varQ x.
Lemma Cmean_sample x : Cmean x = sample_mean x. Proof. reflexivity. Qed.
Lemma iq_flat signal : concat (map (map (fun z => (z - Cmean (concat signal))%C)) signal) = map (fun z => (z - sample_mean (concat signal))%C) (concat signal).
Proof. rewrite <- concat_map. reflexivity. Qed.
Lemma sII_var x : Rsum (map (fun z : C => fst z ^ 2) (map (fun z => (z - sample_mean x)%C) x)) = varI x.
Proof. rewrite map_map. reflexivity. Qed.
Lemma sIQ_cov x : Rsum (map (fun z : C => fst z * snd z) (map (fun z => (z - sample_mean x)%C) x)) = covIQ x.
Proof. rewrite map_map. reflexivity. Qed.
Lemma varQ_shift x k : Rsum (map (fun z : C => (snd z + k * fst z) ^ 2) (map (fun z => (z - sample_mean x)%C) x)) =
  varQ x + 2 * k * covIQ x + k * k * varI x.
Proof.
  rewrite map_map. unfold varQ, covIQ, varI.
  rewrite <- !Rsum_map_scal, <- !Rsum_map_add. apply Rsum_ext. intros z _. unfold Csub. cbn [fst snd]. ring.
Qed.

Lemma asin_facts y : -1 <= y <= 1 -> sin (asin y) = y /\ cos (asin y) * cos (asin y) = 1 - y * y.
Proof.
  intros H. pose proof (sin_asin y H) as S. split; [exact S|].
  pose proof (sin2_cos2 (asin y)) as E. unfold Rsqr in E. rewrite S in E. lra.
Qed.

Lemma iq_value signal : let x := concat signal in
  (iq_rank x /\ exists b c, fst (comp_IQ_inbalance signal) = Some (map (map (aff (sample_mean x) 1 b c 0 0)) signal) /\
     b * covIQ x + c * varI x = 0 /\ b * b * varQ x + 2 * b * c * covIQ x + c * c * varI x = varI x) \/
  (~ iq_rank x /\ fst (comp_IQ_inbalance signal) = None).
Proof.
  intros x. unfold comp_IQ_inbalance. cbn [fst]. rewrite iq_flat, sII_var, sIQ_cov. fold x.
  pose proof (varI_nonneg x) as V0.
  destruct (Req_EM_T (varI x) 0) as [H0|H0]; [right; split; [unfold iq_rank; lra|reflexivity]|].
  assert (Vp : 0 < varI x) by lra.
  set (mon := covIQ x / varI x).
  assert (Em : covIQ x = mon * varI x) by (unfold mon; field; exact H0).
  unfold arcsin.
  assert (NR : ~ (-1 < mon < 1) -> ~ iq_rank x).
  { intros N [_ [R _]]. apply N. rewrite Em in R. split.
    - destruct (Rcase_abs (mon * varI x)) as [h|h]; [rewrite Rabs_left in R by exact h|rewrite Rabs_right in R by exact h]; nra.
    - destruct (Rcase_abs (mon * varI x)) as [h|h]; [rewrite Rabs_left in R by exact h|rewrite Rabs_right in R by exact h]; nra. }
  destruct (Rle_dec (-1) (- mon)) as [h1|h1]; [|right; split; [apply NR; lra|reflexivity]].
  destruct (Rle_dec (- mon) 1) as [h2|h2]; [|right; split; [apply NR; lra|reflexivity]].
  destruct (asin_facts (- mon) (conj h1 h2)) as [S Cq]. rewrite S.
  destruct (Req_EM_T (cos (asin (- mon))) 0) as [h3|h3].
  { right. split; [|reflexivity]. apply NR. rewrite h3 in Cq. nra. }
  set (cq := cos (asin (- mon))) in *.
  assert (Eq : Rsum (map (fun z : C => ((snd z + - mon * fst z) / cq) ^ 2) (map (fun z => (z - sample_mean x)%C) x)) =
               (varQ x - mon * mon * varI x) / (cq * cq)).
  { rewrite (Rsum_ext _ (fun z : C => / (cq * cq) * (snd z + - mon * fst z) ^ 2)) by (intros; field; exact h3).
    rewrite Rsum_map_scal, varQ_shift, Em. field. exact h3. }
  rewrite Eq. assert (Cp : 0 < cq * cq) by nra.
  assert (SQ0 : 0 <= varQ x - mon * mon * varI x).
  { pose proof (varQ_shift x (- mon)) as W.
    assert (0 <= Rsum (map (fun z : C => (snd z + - mon * fst z) ^ 2) (map (fun z => (z - sample_mean x)%C) x))).
    { apply Rsum_nonneg. intros v Hv. apply in_map_iff in Hv as [z [<- _]]. apply pow2_ge_0. }
    rewrite Em in W. lra. }
  destruct (Req_EM_T ((varQ x - mon * mon * varI x) / (cq * cq)) 0) as [h4|h4].
  { right. split; [|reflexivity]. intros [_ [_ R]]. rewrite Em in R.
    assert (varQ x - mon * mon * varI x = 0).
    { apply (Rmult_eq_reg_r (/ (cq * cq))); [|apply Rinv_neq_0_compat; lra]. unfold Rdiv in h4. lra. }
    nra. }
  left. set (q := (varQ x - mon * mon * varI x) / (cq * cq)) in *.
  assert (Hq : 0 < q).
  { assert (0 <= q); [|lra]. unfold q, Rdiv. apply Rmult_le_pos; [exact SQ0|]. left. apply Rinv_0_lt_compat. exact Cp. }
  set (s := sqrt (varI x / q)).
  assert (Hs : s * s = varI x / q) by (apply sqrt_sqrt; left; apply Rdiv_lt_0_compat; lra).
  assert (HQQ : varQ x - mon * mon * varI x = q * (cq * cq)) by (unfold q; field; exact h3).
  split.
  - unfold iq_rank. split; [exact Vp|]. split.
    + rewrite Em. rewrite Rabs_mult, (Rabs_right (varI x)) by lra.
      assert (Rabs mon < 1); [|nra]. apply Rabs_def1; nra.
    + rewrite Em. assert (0 < q * (cq * cq)) by nra. nra.
  - exists (s / cq), (- mon * s / cq). split; [|split].
    + rewrite !map_map. apply (f_equal Some). apply map_ext. intros row. rewrite map_map. apply map_ext. intros z. unfold aff.
      change (Cmean x) with (sample_mean x). unfold Csub. cbn [fst snd]. apply C_eq; cbn [fst snd]; [ring|]. field. exact h3.
    + rewrite Em. field. exact h3.
    + rewrite Em. transitivity (s * s * ((varQ x - mon * mon * varI x) / (cq * cq))); [field; exact h3|].
      rewrite HQQ, Hs. field. split; lra.
Qed.

Lemma iq_ok signal : iq_rank (concat signal) <-> exists out, fst (comp_IQ_inbalance signal) = Some out.
Proof.
  destruct (iq_value signal) as [[R [b [c [E _]]]]|[R E]].
  - split; [intros _; eauto|intros _; exact R].
  - split; [intros R'; contradiction|intros [out E']; congruence].
Qed.
Lemma iq_out signal out : fst (comp_IQ_inbalance signal) = Some out ->
  covIQ (concat out) = 0 /\ varQ (concat out) = varI (concat out) /\ sample_mean (concat out) = C0 /\
  Forall2 (fun row y => map fst y = map (fun z : C => fst z - fst (sample_mean (concat signal))) row) signal out.
Proof.
  intros Ho. destruct (iq_value signal) as [[R [b [c [E [E1 E2]]]]]|[R E]]; [|congruence].
  rewrite E in Ho. injection Ho as <-. set (x := concat signal) in *.
  rewrite <- concat_map. fold x.
  assert (Hx : x <> []) by (intros Hx; destruct R as [R _]; rewrite Hx in R; unfold varI in R; cbn in R; lra).
  repeat split.
  - rewrite aff_cov. lra.
  - rewrite aff_varQ, aff_varI. lra.
  - rewrite aff_mean by exact Hx. reflexivity.
  - fold x. generalize (sample_mean x). clear. intros m. induction signal as [|r s IH]; cbn; constructor; [|exact IH].
    rewrite map_map. apply map_ext. intros z. unfold aff. cbn [fst]. ring.
Qed.
Lemma iq_arg signal : snd (comp_IQ_inbalance signal) = map (map (fun z => (z - sample_mean (concat signal))%C)) signal.
Proof. reflexivity. Qed.
Lemma Csub_id (a m : C) : (a - m)%C = a -> m = C0.
Proof. destruct a, m. unfold Csub, C0. cbn. intros H. injection H as H1 H2. apply C_eq; cbn; lra. Qed.
Lemma iq_arg_same signal : snd (comp_IQ_inbalance signal) = signal <-> concat signal = [] \/ sample_mean (concat signal) = C0.
Proof.
  rewrite iq_arg. generalize (sample_mean (concat signal)). intros m. split.
  - intros H. assert (H' : map (fun z => (z - m)%C) (concat signal) = concat signal) by (rewrite concat_map, H; reflexivity).
    destruct (concat signal) as [|a l]; [left; reflexivity|right]. cbn in H'. injection H' as H1 _. apply (Csub_id a). exact H1.
  - intros [H| ->].
    + induction signal as [|r s IH]; [reflexivity|]. cbn in H. apply app_eq_nil in H as [-> H]. cbn. rewrite IH by exact H. reflexivity.
    + rewrite <- (map_id signal) at 2. apply map_ext. intros r. rewrite <- (map_id r) at 2. apply map_ext. intros z. cring.
Qed.

(** ** comp_rf_delay *)
Lemma rf_delay_ok delay sr row d : sr <> 0 -> 2 * delay = IZR d * sr -> rf_delay_row delay sr row = roll d row.
Proof.
  intros Hs Hd. unfold rf_delay_row. set (X := map RtoC row).
  assert (HX : length X = length row) by apply map_length.
  replace (cmul_list _ (dft X)) with (dft (roll d X)).
  - rewrite idft_dft. unfold X. rewrite roll_map, map_map. cbn. apply map_id.
  - symmetry. apply nth_list_ext.
    + unfold fftfreq. rewrite cmul_list_length; rewrite !map_length, ?seq_length, ?dft_length, ?roll_length; lia.
    + unfold fftfreq. rewrite cmul_list_length by (rewrite !map_length, seq_length, dft_length; lia).
      rewrite !map_length, seq_length. intros k Hk.
      assert (HN : 0 < INR (length row)) by (apply lt_0_INR; lia).
      rewrite cmul_list_nth by (rewrite ?map_length, ?seq_length, ?dft_length; lia).
      rewrite dft_roll by lia. rewrite HX. rewrite map_map, nth_map_seq by exact Hk.
      rewrite freq_bin_val by exact Hk.
      match goal with |- (?a * ?b)%C = _ => replace (a * b)%C with (b * a)%C by ring end. apply f_equal. apply Cexpi_turns.
      destruct (2 * k <? length row)%nat.
      * exists 0%Z. rewrite <- INR_IZR_INZ. replace delay with (IZR d * sr / 2) by lra. field. lra.
      * exists d%Z. rewrite minus_IZR, <- !INR_IZR_INZ. replace delay with (IZR d * sr / 2) by lra. field. lra.
Qed.

(** ** orthonormalize_signal *)
Lemma stride_from_map {A B} (f : A -> B) k c l : stride_from k c (map f l) = map f (stride_from k c l).
Proof. revert c. induction l as [|a l IH]; intros [|c]; cbn; [reflexivity|reflexivity| |]; rewrite IH; reflexivity. Qed.
Lemma stride_map {A B} (f : A -> B) k l : stride k (map f l) = map f (stride k l).
Proof. apply stride_from_map. Qed.
Lemma every_stride os x y : (1 <= os)%nat -> every os x y -> y = stride os x.
Proof.
  intros Ho [HL HE]. apply nth_list_ext.
  - rewrite stride_length by lia. exact HL.
  - intros k Hk. rewrite HE by exact Hk.
    destruct (nth_error (stride os x) k) as [a|] eqn:E.
    + rewrite (nth_of_error _ _ _ C0 E). rewrite stride_nth in E by lia. apply nth_of_error. rewrite Nat.mul_comm. exact E.
    + apply nth_error_None in E. rewrite stride_length in E by lia. lia.
Qed.
Lemma stride_one {A} (l : list A) : stride 1 l = l.
Proof. unfold stride. induction l as [|a l IH]; [reflexivity|]. cbn [stride_from]. change (1 - 1)%nat with 0%nat. rewrite IH. reflexivity. Qed.
Lemma Cnorm2_sum_split x m : Rsum (map Cnorm2 (map (fun z => (z - m)%C) x)) =
  Rsum (map (fun z : C => (fst z - fst m) ^ 2) x) + Rsum (map (fun z : C => (snd z - snd m) ^ 2) x).
Proof. rewrite map_map, <- Rsum_map_add. apply Rsum_ext. intros z _. unfold Cnorm2, Csub. cbn [fst snd]. ring. Qed.

Lemma combine_map2 {A B D} (f : A -> B) (g : A -> D) l : combine (map f l) (map g l) = map (fun x => (f x, g x)) l.
Proof. induction l as [|a l IH]; [reflexivity|]. cbn. rewrite IH. reflexivity. Qed.

Section Ortho.
Variable x : list C.
Let m := sample_mean x.
Let N := INR (length x).
Definition ortho_sig : list C :=
  map (aff m (/ sqrt (varI x / N)) (/ sqrt (varQ x / N)) (- (covIQ x / varI x) * / sqrt (varQ x / N)) 0 0) x.
Lemma Rmean_re : Rmean (map fst x) = fst m.
Proof. unfold Rmean, m, sample_mean, Cscal. cbn [fst]. rewrite map_length, Re_Csum. unfold Rdiv. apply Rmult_comm. Qed.
Lemma Rmean_im : Rmean (map snd x) = snd m.
Proof. unfold Rmean, m, sample_mean, Cscal. cbn [snd]. rewrite map_length, Im_Csum. unfold Rdiv. apply Rmult_comm. Qed.
Lemma mI : Rmean (map (fun v => v ^ 2) (map (fun v => v - Rmean (map fst x)) (map fst x))) = varI x / N.
Proof. rewrite Rmean_re. unfold Rmean. rewrite !map_length, !map_map. reflexivity. Qed.
Lemma mQ : Rmean (map (fun v => v ^ 2) (map (fun v => v - Rmean (map snd x)) (map snd x))) = varQ x / N.
Proof. rewrite Rmean_im. unfold Rmean. rewrite !map_length, !map_map. reflexivity. Qed.
Lemma mcomb : combine (map (fun v => v - Rmean (map fst x)) (map fst x)) (map (fun v => v - Rmean (map snd x)) (map snd x)) =
  map (fun z : C => (fst z - fst m, snd z - snd m)) x.
Proof. rewrite Rmean_re, Rmean_im, !map_map, combine_map2. reflexivity. Qed.
Lemma mIQ : Rmean (map (fun p => fst p * snd p) (map (fun z : C => (fst z - fst m, snd z - snd m)) x)) = covIQ x / N.
Proof. unfold Rmean. rewrite !map_length, map_map. reflexivity. Qed.
Lemma msig : varI x / N <> 0 -> varQ x / N <> 0 ->
  map (fun p => (fst p / sqrt (varI x / N), (snd p - covIQ x / N * fst p / (varI x / N)) / sqrt (varQ x / N)))
    (map (fun z : C => (fst z - fst m, snd z - snd m)) x) = ortho_sig.
Proof.
  intros h1 h2. rewrite map_map. unfold ortho_sig. apply map_ext. intros z. unfold aff, Rdiv. cbn [fst snd]. apply C_eq; cbn [fst snd]; [ring|].
  assert (HN : N <> 0) by (intros E; apply h1; rewrite E; unfold Rdiv; rewrite Rinv_0; ring).
  assert (HV : varI x <> 0) by (intros E; apply h1; rewrite E; unfold Rdiv; ring).
  generalize (/ sqrt (varQ x * / N)). intros k. field. split; assumption.
Qed.
Lemma ortho_row_eq os : ortho_row os x =
  if Req_EM_T (varI x / N) 0 then None else if Req_EM_T (varQ x / N) 0 then None else
  let e := map (fun z => (z - Cmean (stride os ortho_sig))%C) ortho_sig in
  let p := Rmean (map Cnorm2 (stride os e)) in
  if Req_EM_T p 0 then None else Some (map (fun z => Cscal (/ sqrt p) z) e).
Proof.
  unfold ortho_row. cbv zeta. rewrite mI, mQ, mcomb, mIQ.
  destruct (Req_EM_T (varI x / N) 0) as [|h1]; [reflexivity|].
  destruct (Req_EM_T (varQ x / N) 0) as [|h2]; [reflexivity|].
  rewrite msig by assumption. reflexivity.
Qed.
End Ortho.

Lemma scal_aff s m a b c e1 e2 (x : list C) : map (fun z => Cscal s z) (map (aff m a b c e1 e2) x) = map (aff m (s * a) (s * b) (s * c) (s * e1) (s * e2)) x.
Proof. rewrite map_map. apply map_ext. intros z. unfold aff, Cscal. cbn [fst snd]. apply C_eq; cbn [fst snd]; ring. Qed.
Lemma sub_aff d m a b c e1 e2 (x : list C) : map (fun z => (z - d)%C) (map (aff m a b c e1 e2) x) = map (aff m a b c (e1 - fst d) (e2 - snd d)) x.
Proof. rewrite map_map. apply map_ext. intros z. unfold aff, Csub. cbn [fst snd]. apply C_eq; cbn [fst snd]; ring. Qed.

Lemma ortho_out os x y : (1 <= os)%nat -> ortho_row os x = Some y ->
  length y = length x /\ covIQ y = 0 /\ (forall t, every os y t -> sample_mean t = C0 /\ sample_power t = 1) /\ varQ y * (varI x * varQ x) = varI y * (varI x * varQ x - covIQ x * covIQ x).
Proof.
  intros Ho H. rewrite ortho_row_eq in H.
  destruct (Req_EM_T (varI x / INR (length x)) 0) as [|h1]; [discriminate|].
  destruct (Req_EM_T (varQ x / INR (length x)) 0) as [|h2]; [discriminate|].
  cbv zeta in H.
  set (d := Cmean (stride os (ortho_sig x))) in *.
  set (e := map (fun z => (z - d)%C) (ortho_sig x)) in *.
  destruct (Req_EM_T (Rmean (map Cnorm2 (stride os e))) 0) as [|h3]; [discriminate|].
  set (p := Rmean (map Cnorm2 (stride os e))) in *.
  assert (HN : INR (length x) <> 0) by (intros E; apply h1; rewrite E; unfold Rdiv; rewrite Rinv_0; ring).
  assert (HN' : 0 < INR (length x)) by (pose proof (pos_INR (length x)); lra).
  assert (VI : 0 < varI x) by (pose proof (varI_nonneg x); assert (varI x <> 0) by (intros E; apply h1; rewrite E; unfold Rdiv; ring); lra).
  assert (VQ : 0 < varQ x) by (pose proof (varQ_nonneg x); assert (varQ x <> 0) by (intros E; apply h2; rewrite E; unfold Rdiv; ring); lra).
  assert (P0 : 0 < p).
  { assert (0 <= p); [|lra]. unfold p, Rmean, Rdiv. apply Rmult_le_pos.
    - apply Rsum_nonneg. intros v Hv. apply in_map_iff in Hv as [z [<- _]]. apply Cnorm2_nonneg.
    - destruct (length (map Cnorm2 (stride os e))) as [|n]; [cbn; rewrite Rinv_0; lra|]. left. apply Rinv_0_lt_compat, lt_0_INR. lia. }
  set (s := / sqrt p) in *.
  assert (Hs : s * s * p = 1).
  { unfold s. assert (0 < sqrt p) by (apply sqrt_lt_R0; exact P0). rewrite <- (sqrt_sqrt p) at 3 by lra. field. lra. }
  injection H as Hy.
  set (a := / sqrt (varI x / INR (length x))) in *. set (b := / sqrt (varQ x / INR (length x))) in *.
  assert (Ha : a * a * varI x = INR (length x)).
  { unfold a. rewrite <- Rinv_mult, sqrt_sqrt; [field; lra|]. left; apply Rdiv_lt_0_compat; lra. }
  assert (Hb : b * b * varQ x = INR (length x)).
  { unfold b. rewrite <- Rinv_mult, sqrt_sqrt; [field; lra|]. left; apply Rdiv_lt_0_compat; lra. }
  assert (Ey : y = map (aff (sample_mean x) (s * a) (s * b) (s * (- (covIQ x / varI x) * b)) (s * (0 - fst d)) (s * (0 - snd d))) x).
  { rewrite <- Hy. unfold e, ortho_sig. rewrite sub_aff, scal_aff. reflexivity. }
  split; [rewrite Ey; apply map_length|]. split; [|split].
  - rewrite Ey, aff_cov. field. lra.
  - intros t Ht. apply every_stride in Ht; [|exact Ho]. rewrite <- Hy in Ht. rewrite stride_map in Ht.
    assert (Es : stride os e = map (fun z => (z - d)%C) (stride os (ortho_sig x))) by (unfold e; apply stride_map).
    assert (Ln : INR (length (stride os (ortho_sig x))) <> 0).
    { apply not_0_INR. rewrite stride_length by lia. unfold ortho_sig. rewrite map_length.
      assert (length x <> 0)%nat by (intros E; apply HN; rewrite E; reflexivity).
      assert (1 <= (length x + os - 1) / os)%nat by (apply Nat.div_le_lower_bound; lia). lia. }
    assert (L2 : length (stride os e) = length (stride os (ortho_sig x))) by (rewrite Es; apply map_length).
    split.
    + subst t. unfold sample_mean. rewrite map_length, L2.
      assert (Z : Csum (stride os e) = C0).
      { rewrite Es. set (u := stride os (ortho_sig x)) in *.
        replace (Csum (map (fun z => (z - d)%C) u)) with (Csum u - Cscal (INR (length u)) d)%C.
        - unfold d, Cmean. fold u. apply C_eq; unfold Csub, Cscal, C0; cbn [fst snd]; field; exact Ln.
        - clear. clearbody d. induction u as [|z u IH]; [cbn; cring|]. cbn [map]. rewrite !Csum_cons, <- IH.
          cbn [length]. rewrite S_INR. cring. }
      replace (Csum (map (fun z => Cscal s z) (stride os e))) with (Cscal s (Csum (stride os e))).
      * rewrite Z. apply C_eq; unfold Cscal, C0; cbn [fst snd]; ring.
      * generalize (stride os e). clear. intros l. induction l as [|z l IH]; [cbn; cring|]. cbn [map]. rewrite !Csum_cons, <- IH. cring.
    + subst t. unfold sample_power. rewrite !map_map, map_length.
      rewrite (Rsum_ext _ (fun z => s * s * Cnorm2 z)) by (intros; apply Cnorm2_scal).
      rewrite Rsum_map_scal. transitivity (s * s * p); [|exact Hs].
      unfold p, Rmean. rewrite map_length. unfold Rdiv. ring.
  - rewrite Ey, aff_varQ, aff_varI.
    transitivity (s * s * ((b * b * varQ x) * (varI x * varQ x - covIQ x * covIQ x))); [field; lra|].
    rewrite Hb, <- Ha. ring.
Qed.

(** at the symbol rate every mode of full rank has a result *)
Lemma ortho_some x : 0 < varI x -> 0 < varQ x -> exists y, ortho_row 1 x = Some y.
Proof.
  intros VI VQ. rewrite ortho_row_eq.
  assert (HN : 0 < INR (length x)).
  { apply lt_0_INR. destruct x; [unfold varI in VI; cbn in VI; lra|cbn; lia]. }
  assert (h1 : 0 < varI x / INR (length x)) by (apply Rdiv_lt_0_compat; lra).
  assert (h2 : 0 < varQ x / INR (length x)) by (apply Rdiv_lt_0_compat; lra).
  destruct (Req_EM_T (varI x / INR (length x)) 0) as [|_]; [lra|].
  destruct (Req_EM_T (varQ x / INR (length x)) 0) as [|_]; [lra|]. cbv zeta. rewrite !stride_one.
  set (e := map _ (ortho_sig x)).
  destruct (Req_EM_T (Rmean (map Cnorm2 e)) 0) as [h3|_]; [exfalso|eauto].
  unfold e in h3. change (Cmean (ortho_sig x)) with (sample_mean (ortho_sig x)) in h3.
  unfold Rmean in h3. rewrite Cnorm2_sum_split in h3.
  change (Rsum (map (fun z : C => (fst z - fst (sample_mean (ortho_sig x))) ^ 2) (ortho_sig x))) with (varI (ortho_sig x)) in h3.
  change (Rsum (map (fun z : C => (snd z - snd (sample_mean (ortho_sig x))) ^ 2) (ortho_sig x))) with (varQ (ortho_sig x)) in h3.
  assert (E : varI (ortho_sig x) = INR (length x)).
  { unfold ortho_sig. rewrite aff_varI. rewrite <- Rinv_mult, sqrt_sqrt by lra. field. lra. }
  rewrite !map_length in h3. unfold ortho_sig in h3 at 3. rewrite map_length in h3.
  pose proof (varQ_nonneg (ortho_sig x)).
  assert (0 < (varI (ortho_sig x) + varQ (ortho_sig x)) / INR (length x)) by (apply Rdiv_lt_0_compat; lra). lra.
Qed.
