(** Proofs about rotations, delays, PMD and dispersion. *)
From Coq Require Import List ZArith Arith Bool Reals Lra Lia.
From Coq Require Import ZifyBool ZifyNat ZifyN.
From Verif Require Import Common.Py Common.Cplx Common.SumX Common.Angle Common.ListX Common.Dft
  Model.Helpers Model.Phase Model.Impair Spec.Seq Spec.Equal Spec.ImpairSpec.
Import ListNotations.
Local Open Scope R_scope.

(** ** rotation *)
Lemma zipc_length f a b : length a = length b -> length (zipc f a b) = length a.
Proof. intros H. unfold zipc. rewrite map_length, combine_length. lia. Qed.
Lemma zipc_nth f a b k u v : nth_error a k = Some u -> nth_error b k = Some v -> nth_error (zipc f a b) k = Some (f u v).
Proof.
  revert b k. induction a as [|x a IH]; intros [|y b] [|k] H1 H2; cbn in *; try discriminate.
  - injection H1 as <-. injection H2 as <-. reflexivity.
  - apply IH; assumption.
Qed.

Lemma rot_power t (a b : C) : Cnorm2 (Cscal (cos t) a + Cscal (- sin t) b)%C + Cnorm2 (Cscal (sin t) a + Cscal (cos t) b)%C = Cnorm2 a + Cnorm2 b.
Proof.
  pose proof (sin2_cos2 t) as H. unfold Rsqr in H. unfold Cnorm2, Cadd, Cscal. cbn [fst snd].
  replace ((cos t * fst a + - sin t * fst b) * (cos t * fst a + - sin t * fst b) +
    (cos t * snd a + - sin t * snd b) * (cos t * snd a + - sin t * snd b) +
    ((sin t * fst a + cos t * fst b) * (sin t * fst a + cos t * fst b) +
     (sin t * snd a + cos t * snd b) * (sin t * snd a + cos t * snd b)))
    with ((sin t * sin t + cos t * cos t) * (fst a * fst a + snd a * snd a + (fst b * fst b + snd b * snd b))) by ring.
  rewrite H. ring.
Qed.

Lemma rotate_power x y theta : length x = length y -> exists x' y', rotate_field [x; y] theta = Ok [x'; y'] /\
  length x' = length x /\ length y' = length x /\
  forall k a b, nth_error x k = Some a -> nth_error y k = Some b -> exists a' b',
    nth_error x' k = Some a' /\ nth_error y' k = Some b' /\
    a' = (Cscal (cos theta) a - Cscal (sin theta) b)%C /\ b' = (Cscal (sin theta) a + Cscal (cos theta) b)%C /\
    Cnorm2 a' + Cnorm2 b' = Cnorm2 a + Cnorm2 b.
Proof.
  intros H. eexists. eexists. split; [reflexivity|]. split; [apply zipc_length; exact H|]. split; [apply zipc_length; exact H|].
  intros k a b Ha Hb. eexists. eexists.
  split; [eapply zipc_nth; eassumption|]. split; [eapply zipc_nth; eassumption|].
  cbv beta. split; [cring|]. split; [reflexivity|]. apply rot_power.
Qed.

Lemma rotate_back x y t : length x = length y ->
  (let! E' := rotate_field [x; y] t in rotate_field E' (- t)) = Ok [x; y].
Proof.
  intros H. cbn [rotate_field bind]. apply f_equal.
  pose proof (sin2_cos2 t) as Hs. unfold Rsqr in Hs.
  apply (f_equal2 cons); [|apply (f_equal2 cons); [|reflexivity]].
  - revert y H. induction x as [|a x IH]; intros [|b y] H; cbn in H; try discriminate; [reflexivity|].
    unfold zipc in *. cbn [combine map fst snd]. apply (f_equal2 cons); [|apply IH; congruence].
    rewrite cos_neg, sin_neg. apply C_eq; unfold Cadd, Cscal; cbn [fst snd].
    + replace (cos t * (cos t * fst a + - sin t * fst b) + - - sin t * (sin t * fst a + cos t * fst b)) with ((sin t * sin t + cos t * cos t) * fst a) by ring. rewrite Hs. ring.
    + replace (cos t * (cos t * snd a + - sin t * snd b) + - - sin t * (sin t * snd a + cos t * snd b)) with ((sin t * sin t + cos t * cos t) * snd a) by ring. rewrite Hs. ring.
  - revert y H. induction x as [|a x IH]; intros [|b y] H; cbn in H; try discriminate; [reflexivity|].
    unfold zipc in *. cbn [combine map fst snd]. apply (f_equal2 cons); [|apply IH; congruence].
    rewrite cos_neg, sin_neg. apply C_eq; unfold Cadd, Cscal; cbn [fst snd].
    + replace (- sin t * (cos t * fst a + - sin t * fst b) + cos t * (sin t * fst a + cos t * fst b)) with ((sin t * sin t + cos t * cos t) * fst b) by ring. rewrite Hs. ring.
    + replace (- sin t * (cos t * snd a + - sin t * snd b) + cos t * (sin t * snd a + cos t * snd b)) with ((sin t * sin t + cos t * cos t) * snd b) by ring. rewrite Hs. ring.
Qed.

Lemma two_rows {A} (E : list (list A)) N : shape E 2 N -> exists x y, E = [x; y] /\ length x = N /\ length y = N.
Proof.
  intros [H1 H2]. destruct E as [|x [|y [|z E]]]; cbn in H1; try discriminate.
  exists x, y. inversion H2 as [|? ? Hx H3]; subst. inversion H3; subst. auto.
Qed.

Lemma rotate_inverse E theta N : shape E 2 N -> (let! E' := rotate_field E theta in rotate_field E' (- theta)) = Ok E.
Proof. intros H. destruct (two_rows E N H) as (x & y & -> & Hx & Hy). apply rotate_back. congruence. Qed.

Lemma rotate_modes E theta : length E <> 2%nat -> rotate_field E theta = Err ValueError.
Proof. intros H. destruct E as [|x [|y [|z E]]]; cbn in H |- *; try reflexivity. contradiction. Qed.

(** ** circular delays *)
Lemma roll_delayed {A} d (x : list A) : delayed d x (roll d x).
Proof. split; [apply roll_length|]. intros k Hk. apply roll_nth. exact Hk. Qed.

Lemma modal_delay_ok sig delay : length delay = length sig -> exists out, add_modal_delay sig delay = Ok out /\
  length out = length sig /\
  (forall m x d, nth_error sig m = Some x -> nth_error delay m = Some d -> exists y, nth_error out m = Some y /\ delayed d x y) /\
  add_modal_delay out (map Z.opp delay) = Ok sig.
Proof.
  intros H. unfold add_modal_delay. rewrite H, Nat.eqb_refl. eexists. split; [reflexivity|].
  split; [rewrite map_length, combine_length; lia|]. split.
  - intros m x d Hx Hd. exists (roll d x). split; [|apply roll_delayed].
    rewrite nth_error_map.
    assert (E : nth_error (combine sig delay) m = Some (x, d)).
    { clear H. revert sig delay Hx Hd. induction m as [|m IH]; intros [|a sig] [|b delay] Hx Hd; cbn in *; try discriminate.
      - injection Hx as <-. injection Hd as <-. reflexivity.
      - apply IH; assumption. }
    rewrite E. reflexivity.
  - rewrite !map_length, combine_length, H, Nat.min_id, Nat.eqb_refl. apply f_equal.
    revert delay H. induction sig as [|x sig IH]; intros [|d delay] H; cbn in H; try discriminate; [reflexivity|].
    cbn [combine map fst snd]. apply (f_equal2 cons); [|apply IH; congruence].
    rewrite roll_roll, Z.add_opp_diag_l. apply roll_0.
Qed.
Lemma modal_delay_bad sig delay : length delay <> length sig -> add_modal_delay sig delay = Err AssertionError.
Proof. intros H. unfold add_modal_delay. destruct (Nat.eqb_spec (length delay) (length sig)); [contradiction|reflexivity]. Qed.

(** ** PMD *)
Lemma spectrum_length x : length (spectrum x) = length x.
Proof. unfold spectrum. rewrite fftshift_length, dft_length, ifftshift_length. reflexivity. Qed.
Lemma unspectrum_length x : length (unspectrum x) = length x.
Proof. unfold unspectrum. rewrite fftshift_length, idft_length, ifftshift_length. reflexivity. Qed.
Lemma unspectrum_spectrum x : unspectrum (spectrum x) = x.
Proof. unfold unspectrum, spectrum. rewrite ifftshift_fftshift, idft_dft, fftshift_ifftshift. reflexivity. Qed.
Lemma spectrum_unspectrum x : spectrum (unspectrum x) = x.
Proof. unfold unspectrum, spectrum. rewrite ifftshift_fftshift, dft_idft, fftshift_ifftshift. reflexivity. Qed.
Lemma spectrum_energy x : lenergy (spectrum x) = INR (length x) * lenergy x.
Proof. unfold spectrum, fftshift, ifftshift. rewrite lenergy_roll, parseval, lenergy_roll, roll_length. reflexivity. Qed.

Definition phases (s : R) (omega : list R) : list C := map (fun w => Cexpi (w * s)) omega.
Lemma phases_norm s om z : In z (phases s om) -> Cnorm2 z = 1.
Proof. intros H. apply in_map_iff in H. destruct H as (w & <- & _). apply Cnorm2_expi. Qed.
Lemma phases_add s t om : cmul_list (phases s om) (phases t om) = phases (s + t) om.
Proof.
  unfold phases, cmul_list. induction om as [|w om IH]; [reflexivity|]. cbn [map combine fst snd].
  apply (f_equal2 cons); [|exact IH]. rewrite <- Cexpi_add. apply f_equal. ring.
Qed.
Lemma phases_0 om z : In z (phases 0 om) -> z = C1.
Proof. intros H. apply in_map_iff in H. destruct H as (w & <- & _). rewrite Rmult_0_r. apply Cexpi_0. Qed.

Lemma pmd_eq x y theta t om : length x = length om -> length y = length om ->
  exists u v, rotate_field [spectrum x; spectrum y] theta = Ok [u; v] /\ length u = length om /\ length v = length om /\
  exists a b, rotate_field [cmul_list u (phases (- (t / 2)) om); cmul_list v (phases (t / 2) om)] (- theta) = Ok [a; b] /\
  length a = length om /\ length b = length om /\
  applyPMD_dot [x; y] theta t om = Ok [unspectrum a; unspectrum b].
Proof.
  intros Hx Hy.
  destruct (rotate_power (spectrum x) (spectrum y) theta) as (u & v & E1 & Hu & Hv & _); [rewrite !spectrum_length; lia|].
  rewrite spectrum_length in Hu, Hv.
  exists u, v. split; [exact E1|]. split; [lia|]. split; [lia|].
  destruct (rotate_power (cmul_list u (phases (- (t / 2)) om)) (cmul_list v (phases (t / 2) om)) (- theta)) as (a & b & E2 & Ha & Hb & _).
  { rewrite !cmul_list_length; unfold phases; rewrite ?map_length; lia. }
  rewrite cmul_list_length in Ha, Hb by (unfold phases; rewrite map_length; lia).
  exists a, b. split; [exact E2|]. split; [lia|]. split; [lia|].
  unfold applyPMD_dot. cbn [map]. rewrite E1. cbn [bind combine map fst snd].
  replace (map (fun w => Cexpi (- (w * t / 2))) om) with (phases (- (t / 2)) om).
  2:{ apply map_ext. intros w. apply f_equal. field. }
  replace (map (fun w => Cexpi (w * t / 2)) om) with (phases (t / 2) om).
  2:{ apply map_ext. intros w. apply f_equal. field. }
  rewrite E2. reflexivity.
Qed.

Lemma rot_energy x y theta u v : length x = length y -> rotate_field [x; y] theta = Ok [u; v] ->
  lenergy u + lenergy v = lenergy x + lenergy y.
Proof.
  intros H E. cbn [rotate_field] in E. injection E as <- <-. revert y H.
  induction x as [|a x IH]; intros [|b y] H; cbn in H; try discriminate; [reflexivity|].
  unfold zipc, lenergy in *. cbn [combine map fst snd]. rewrite !Rsum_cons.
  pose proof (rot_power theta a b) as Hp. specialize (IH y ltac:(congruence)). lra.
Qed.

Lemma field_energy_two x y : field_energy [x; y] = lenergy x + lenergy y.
Proof. unfold field_energy, lenergy. cbn [concat]. rewrite app_nil_r, map_app. apply Rsum_app. Qed.

Lemma pmd_energy x y theta t om a b : length x = length om -> length y = length om ->
  applyPMD_dot [x; y] theta t om = Ok [a; b] -> field_energy [a; b] = field_energy [x; y].
Proof.
  intros Hx Hy E. destruct (pmd_eq x y theta t om Hx Hy) as (u & v & E1 & Hu & Hv & c & d & E2 & Hc & Hd & E3).
  rewrite E3 in E. injection E as <- <-. rewrite !field_energy_two.
  destruct (Nat.eq_dec (length om) 0) as [Z|Z].
  { assert (x = [] /\ y = [] /\ c = [] /\ d = []) as (-> & -> & -> & ->).
    { repeat split; apply length_zero_iff_nil; lia. }
    reflexivity. }
  assert (HN : 0 < INR (length om)) by (apply lt_0_INR; lia).
  apply rot_energy in E1; [|rewrite !spectrum_length; lia].
  apply rot_energy in E2; [|rewrite !cmul_list_length; unfold phases; rewrite ?map_length; lia].
  rewrite !cmul_list_energy in E2; try (unfold phases; rewrite map_length; lia); try (apply phases_norm).
  rewrite !spectrum_energy in E1.
  pose proof (spectrum_energy (unspectrum c)) as Ec. pose proof (spectrum_energy (unspectrum d)) as Ed.
  rewrite spectrum_unspectrum, unspectrum_length in Ec, Ed. rewrite Hc in Ec. rewrite Hd in Ed. rewrite Hx, Hy in E1.
  apply (Rmult_eq_reg_l (INR (length om))); lra.
Qed.

Lemma rotate_det x y theta : length x = length y -> forall u v, rotate_field [x; y] theta = Ok [u; v] ->
  rotate_field [u; v] (- theta) = Ok [x; y].
Proof. intros H u v E. pose proof (rotate_back x y theta H) as B. rewrite E in B. exact B. Qed.

(** two delays about the same axes add up *)
Lemma pmd_compose x y theta s t om : length x = length om -> length y = length om ->
  (let! E' := applyPMD_dot [x; y] theta s om in applyPMD_dot E' theta t om) = applyPMD_dot [x; y] theta (s + t) om.
Proof.
  intros Hx Hy.
  destruct (pmd_eq x y theta s om Hx Hy) as (u & v & E1 & Hu & Hv & c & d & E2 & Hc & Hd & E3).
  rewrite E3. cbn [bind].
  destruct (pmd_eq (unspectrum c) (unspectrum d) theta t om) as (u' & v' & E1' & Hu' & Hv' & c' & d' & E2' & Hc' & Hd' & E3');
    [rewrite unspectrum_length; exact Hc|rewrite unspectrum_length; exact Hd|].
  rewrite E3'. rewrite !spectrum_unspectrum in E1'.
  destruct (pmd_eq x y theta (s + t) om Hx Hy) as (u2 & v2 & F1 & _ & _ & c2 & d2 & F2 & _ & _ & F3).
  rewrite F3. rewrite E1 in F1. injection F1 as <- <-.
  apply rotate_det in E2; [|rewrite !cmul_list_length; unfold phases; rewrite ?map_length; lia].
  rewrite Ropp_involutive in E2. rewrite E1' in E2. injection E2 as -> ->.
  rewrite !cmul_list_assoc, !phases_add in E2'.
  replace (- (s / 2) + - (t / 2)) with (- ((s + t) / 2)) in E2' by field.
  replace (s / 2 + t / 2) with ((s + t) / 2) in E2' by field.
  rewrite E2' in F2. injection F2 as <- <-. reflexivity.
Qed.

Lemma pmd_zero x y theta om : length x = length om -> length y = length om -> applyPMD_dot [x; y] theta 0 om = Ok [x; y].
Proof.
  intros Hx Hy.
  destruct (pmd_eq x y theta 0 om Hx Hy) as (u & v & E1 & Hu & Hv & c & d & E2 & Hc & Hd & E3).
  rewrite E3. apply rotate_det in E1; [|rewrite !spectrum_length; lia].
  replace (- (0 / 2)) with 0 in E2 by field. replace (0 / 2) with 0 in E2 by field.
  rewrite !cmul_list_one in E2; try (unfold phases; rewrite map_length; lia); try apply phases_0.
  rewrite E1 in E2. injection E2 as <- <-. rewrite !unspectrum_spectrum. reflexivity.
Qed.

Lemma pmd_omega_length fs N : length (pmd_omega fs N) = N.
Proof. unfold pmd_omega. rewrite map_length, seq_length. reflexivity. Qed.

Lemma PMD_lossless E theta t fs N : shape E 2 N -> exists E', apply_PMD_to_field E theta t fs = Ok E' /\ shape E' 2 N /\
  field_energy E' = field_energy E /\ apply_PMD_to_field E' theta (- t) fs = Ok E.
Proof.
  intros H. destruct (two_rows E N H) as (x & y & -> & Hx & Hy).
  unfold apply_PMD_to_field. cbn [row_length]. rewrite Hx.
  pose proof (pmd_omega_length fs N) as HL. set (om := pmd_omega fs N) in *.
  destruct (pmd_eq x y theta t om) as (u & v & E1 & Hu & Hv & c & d & E2 & Hc & Hd & E3); [lia|lia|].
  exists [unspectrum c; unspectrum d]. split; [exact E3|]. split.
  { split; [reflexivity|]. repeat constructor; rewrite unspectrum_length; lia. }
  split.
  { eapply (pmd_energy x y theta t om); [lia|lia|exact E3]. }
  cbn [row_length]. rewrite unspectrum_length, Hc, HL. fold om.
  pose proof (pmd_compose x y theta t (- t) om ltac:(lia) ltac:(lia)) as B. rewrite E3 in B. cbn [bind] in B.
  rewrite B. replace (t + - t) with 0 by ring. apply pmd_zero; lia.
Qed.

Lemma PMD_add E theta s t fs N : shape E 2 N ->
  (let! E' := apply_PMD_to_field E theta s fs in apply_PMD_to_field E' theta t fs) = apply_PMD_to_field E theta (s + t) fs.
Proof.
  intros H. destruct (PMD_lossless E theta s fs N H) as (E' & EE & HE' & _). rewrite EE. cbn [bind].
  destruct (two_rows E N H) as (x & y & -> & Hx & Hy).
  destruct (two_rows E' N HE') as (x' & y' & -> & Hx' & Hy').
  unfold apply_PMD_to_field in *. cbn [row_length] in *. rewrite Hx' in *. rewrite Hx in *.
  pose proof (pmd_omega_length fs N) as HL.
  pose proof (pmd_compose x y theta s t (pmd_omega fs N) ltac:(lia) ltac:(lia)) as B. rewrite EE in B. exact B.
Qed.

Lemma PMD_modes E theta t fs : length E <> 2%nat -> apply_PMD_to_field E theta t fs = Err ValueError.
Proof. intros H. unfold apply_PMD_to_field, applyPMD_dot. rewrite rotate_modes; [reflexivity|rewrite map_length; exact H]. Qed.
