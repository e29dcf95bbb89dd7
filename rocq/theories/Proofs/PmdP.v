(** H_PMD and the einsum version of the PMD filter *)
From Coq Require Import List ZArith Arith Bool Reals Lia Lra.
From Verif Require Import Common.Py Common.Cplx Common.ListX Common.SumX Common.Dft Model.Helpers Model.Impair Model.Pmd
  Spec.PmdS Spec.ImpairSpec Proofs.ImpairP Proofs.ImpairQ.
Import ListNotations.
Local Open Scope R_scope.

Lemma lin2_nth a b x y k u v : nth_error x k = Some u -> nth_error y k = Some v ->
  nth_error (lin2 a b x y) k = Some (Cadd (Cscal a u) (Cscal b v)).
Proof. intros H1 H2. unfold lin2. now rewrite (zipc_nth _ _ _ _ _ _ H1 H2). Qed.
Lemma zeros_nth n k (om : list R) w : length om = n -> nth_error om k = Some w -> nth_error (repeat C0 n) k = Some C0.
Proof.
  intros <- H. assert (K : (k < length om)%nat) by (apply nth_error_Some; congruence).
  apply nth_error_repeat. exact K.
Qed.

Lemma H_PMD_entries theta t om k w : nth_error om k = Some w ->
  let H := fst (H_PMD theta t om) in let e := Cexpi (w * t / 2) in
  nth_error (m00 H) k = Some (Cscal (cos theta) (Cconj e)) /\ nth_error (m01 H) k = Some (Cscal (- sin theta) e) /\
  nth_error (m10 H) k = Some (Cscal (sin theta) (Cconj e)) /\ nth_error (m11 H) k = Some (Cscal (cos theta) e).
Proof.
  intros Hk H e.
  pose proof (zeros_nth (length om) k om w eq_refl Hk) as Z.
  assert (A : nth_error (map (fun w => Cexpi (- (w * t / 2))) om) k = Some (Cconj e)).
  { rewrite (map_nth_error (fun w => Cexpi (- (w * t / 2))) k om Hk). apply f_equal. unfold e, Cexpi, Cconj. cbn [fst snd].
    rewrite cos_neg, sin_neg. reflexivity. }
  assert (B : nth_error (map (fun w => Cexpi (w * t / 2)) om) k = Some e) by exact (map_nth_error (fun w => Cexpi (w * t / 2)) k om Hk).
  unfold H, H_PMD, rot2. cbn [fst m00 m01 m10 m11].
  rewrite (lin2_nth _ _ _ _ _ _ _ A Z), (lin2_nth _ _ _ _ _ _ _ Z B), (lin2_nth _ _ _ _ _ _ _ A Z), (lin2_nth _ _ _ _ _ _ _ Z B).
  repeat split; apply f_equal; cring.
Qed.
Lemma H_PMD_matrix theta t om k w : nth_error om k = Some w ->
  let (H, h3) := H_PMD theta t om in exists a b c d,
  nth_error (m00 H) k = Some a /\ nth_error (m01 H) k = Some b /\ nth_error (m10 H) k = Some c /\ nth_error (m11 H) k = Some d /\
  unitary2 a b c d.
Proof.
  intros Hk. pose proof (H_PMD_entries theta t om k w Hk) as (A & B & Cc & D). destruct (H_PMD theta t om) as [H h3]. cbn [fst] in *.
  eexists _, _, _, _. repeat split; try eassumption; apply C_eq; unfold Cadd, Cmul, Cconj, Cscal, Cexpi, C1, C0; cbn [fst snd];
  generalize (w * t / 2) as p; intros p; pose proof (sin2_cos2 theta) as P; pose proof (sin2_cos2 p) as Q; unfold Rsqr in P, Q; try ring.
  - transitivity ((cos theta * cos theta + sin theta * sin theta) * (cos p * cos p + sin p * sin p)); [ring|]. replace (cos theta * cos theta + sin theta * sin theta) with 1 by lra. lra.
  - transitivity ((cos theta * cos theta + sin theta * sin theta) * (cos p * cos p + sin p * sin p)); [ring|]. replace (cos theta * cos theta + sin theta * sin theta) with 1 by lra. lra.
Qed.
Lemma H_PMD_axis_lost theta t om k w : nth_error om k = Some w ->
  let (H, h3) := H_PMD theta t om in exists a b c d,
  nth_error (m00 H) k = Some a /\ nth_error (m01 H) k = Some b /\ nth_error (m10 H) k = Some c /\ nth_error (m11 H) k = Some d /\
  Cadd (Cscal (m00 h3) a) (Cscal (m01 h3) c) = Cexpi (- (w * t / 2)) /\ Cadd (Cscal (m00 h3) b) (Cscal (m01 h3) d) = C0 /\
  Cadd (Cscal (m10 h3) a) (Cscal (m11 h3) c) = C0 /\ Cadd (Cscal (m10 h3) b) (Cscal (m11 h3) d) = Cexpi (w * t / 2).
Proof.
  intros Hk. pose proof (H_PMD_entries theta t om k w Hk) as (A & B & Cc & D).
  assert (E3 : snd (H_PMD theta t om) = rot2 (- theta)) by reflexivity.
  destruct (H_PMD theta t om) as [H h3]. cbn [fst snd] in *. subst h3.
  eexists _, _, _, _. repeat split; try eassumption; apply C_eq; unfold Cadd, Cmul, Cconj, Cscal, Cexpi, C1, C0, rot2; cbn [fst snd m00 m01 m10 m11];
  rewrite ?cos_neg, ?sin_neg; generalize (w * t / 2) as p; intros p; pose proof (sin2_cos2 theta) as P; unfold Rsqr in P; try ring.
  - transitivity ((cos theta * cos theta + sin theta * sin theta) * cos p); [ring|]. replace (cos theta * cos theta + sin theta * sin theta) with 1 by lra. ring.
  - transitivity ((cos theta * cos theta + sin theta * sin theta) * - sin p); [ring|]. replace (cos theta * cos theta + sin theta * sin theta) with 1 by lra. ring.
  - transitivity ((cos theta * cos theta + sin theta * sin theta) * cos p); [ring|]. replace (cos theta * cos theta + sin theta * sin theta) with 1 by lra. ring.
  - transitivity ((cos theta * cos theta + sin theta * sin theta) * sin p); [ring|]. replace (cos theta * cos theta + sin theta * sin theta) with 1 by lra. ring.
Qed.

(** the factors applied by the einsum *)
Definition fac1 theta t (om : list R) := map (fun w => Cadd (Cscal (cos theta) (Cexpi (- (w * t / 2)))) (Cscal (- sin theta) (Cexpi (w * t / 2)))) om.
Definition fac2 theta t (om : list R) := map (fun w => Cadd (Cscal (sin theta) (Cexpi (- (w * t / 2)))) (Cscal (cos theta) (Cexpi (w * t / 2)))) om.
Lemma zipc_lin2 a b (f g : R -> C) om :
  zipc Cadd (lin2 a b (map f om) (repeat C0 (length om))) (lin2 a b (repeat C0 (length om)) (map g om))
  = map (fun w => Cadd (Cscal a (f w)) (Cscal b (g w))) om.
Proof.
  unfold zipc, lin2, zipc. induction om as [|w om IH]; [reflexivity|].
  cbn [map length repeat combine fst snd]. apply (f_equal2 cons); [cring|exact IH].
Qed.
Lemma lin2_length a b x y : length x = length y -> length (lin2 a b x y) = length x.
Proof. apply zipc_length. Qed.
Lemma einsum_eq x y theta t om : length x = length om -> length y = length om ->
  let (H, h3) := H_PMD theta t om in applyPMD_einsum [x; y] H h3 =
  rotate_field [unspectrum (cmul_list (fac1 theta t om) (spectrum x)); unspectrum (cmul_list (fac2 theta t om) (spectrum y))] (- theta).
Proof.
  intros Hx Hy. unfold H_PMD, applyPMD_einsum. cbn [m00 m01 m10 m11 rot2].
  rewrite lin2_length by (rewrite map_length, repeat_length; reflexivity). rewrite map_length, Hx, Hy, Nat.eqb_refl. cbn [andb].
  rewrite !zipc_lin2. reflexivity.
Qed.
Lemma cmul_list_comm a b : cmul_list a b = cmul_list b a.
Proof. revert b. induction a as [|x a IH]; intros [|y b]; try reflexivity. unfold cmul_list in *. cbn [combine map fst snd]. apply (f_equal2 cons); [cring|apply IH]. Qed.

Lemma einsum_axis_zero x y t om : length x = length om -> length y = length om ->
  let (H, h3) := H_PMD 0 t om in applyPMD_einsum [x; y] H h3 = applyPMD_dot [x; y] 0 t om.
Proof.
  intros Hx Hy. pose proof (einsum_eq x y 0 t om Hx Hy) as E. destruct (H_PMD 0 t om) as [H h3]. rewrite E.
  assert (F1 : fac1 0 t om = phases (- (t / 2)) om).
  { unfold fac1, phases. apply map_ext. intros w. rewrite cos_0, sin_0. replace (w * - (t / 2)) with (- (w * t / 2)) by field. cring. }
  assert (F2 : fac2 0 t om = phases (t / 2) om).
  { unfold fac2, phases. apply map_ext. intros w. rewrite cos_0, sin_0. replace (w * (t / 2)) with (w * t / 2) by field. cring. }
  assert (L : forall s, length (phases s om) = length om) by (intros; unfold phases; apply map_length).
  rewrite F1, F2, Ropp_0. rewrite rotate_zero.
  2:{ rewrite !unspectrum_length, !cmul_list_length; rewrite ?L, ?spectrum_length; congruence. }
  destruct (pmd_eq x y 0 t om Hx Hy) as (u & v & E1 & _ & _ & a & b & E2 & _ & _ & E3). rewrite E3.
  rewrite rotate_zero in E1 by (rewrite !spectrum_length; congruence).
  assert (u = spectrum x) by congruence. assert (v = spectrum y) by congruence. subst u v.
  rewrite Ropp_0 in E2. rewrite rotate_zero in E2 by (rewrite !cmul_list_length; rewrite ?L, ?spectrum_length; congruence).
  rewrite (cmul_list_comm (phases _ _)), (cmul_list_comm (phases (t / 2) om)). congruence.
Qed.

Lemma cmul_list_zero a b : (length b <= length a)%nat -> Forall (fun z => z = C0) a -> cmul_list a b = repeat C0 (length b).
Proof.
  revert b. induction a as [|x a IH]; intros [|y b] H F; cbn [length] in *; try lia; [reflexivity|reflexivity|].
  inversion F; subst. unfold cmul_list in *. cbn [combine map fst snd repeat]. apply (f_equal2 cons); [cring|apply IH; [lia|assumption]].
Qed.
Lemma lin2_zero a b n : lin2 a b (repeat C0 n) (repeat C0 n) = repeat C0 n.
Proof. unfold lin2, zipc. induction n; [reflexivity|]. cbn [repeat combine map fst snd]. apply (f_equal2 cons); [cring|exact IHn]. Qed.
Lemma dft_zero n : dft (repeat C0 n) = repeat C0 n /\ idft (repeat C0 n) = repeat C0 n.
Proof.
  assert (N : forall k, nth k (repeat C0 n) C0 = C0).
  { intros k. destruct (Nat.lt_ge_cases k n); [now rewrite nth_repeat|apply nth_overflow; rewrite repeat_length; lia]. }
  split; (apply nth_ext with (d := C0) (d' := C0); [rewrite ?dft_length, ?idft_length; reflexivity|];
    intros k Hk; rewrite ?dft_length, ?idft_length, repeat_length in Hk; rewrite N).
  - rewrite dft_nth by (now rewrite repeat_length). apply csum_zero. intros i _. rewrite N. cring.
  - rewrite idft_nth by (now rewrite repeat_length). rewrite csum_zero; [cring|]. intros i _. rewrite N. cring.
Qed.
Lemma roll_zero d n : roll d (repeat C0 n) = repeat C0 n.
Proof.
  apply nth_error_ext_lt; [now rewrite roll_length|]. rewrite roll_length, repeat_length. intros k Hk.
  destruct (nth_error (roll d (repeat C0 n)) k) as [z|] eqn:E.
  2:{ apply nth_error_None in E. rewrite roll_length, repeat_length in E. lia. }
  rewrite nth_error_repeat by exact Hk. apply f_equal. apply nth_error_In in E. unfold roll in E. apply in_app_or in E.
  assert (K : forall m (l : list C), In z (firstn m l) \/ In z (skipn m l) -> In z l).
  { intros m l Hi. rewrite <- (firstn_skipn m l). apply in_or_app. exact Hi. }
  apply (repeat_spec n C0). destruct E as [E|E]; eapply K; [right|left]; exact E.
Qed.
Lemma spectrum_zero n : spectrum (repeat C0 n) = repeat C0 n /\ unspectrum (repeat C0 n) = repeat C0 n.
Proof. destruct (dft_zero n) as [A B]. unfold spectrum, unspectrum, fftshift, ifftshift. rewrite !roll_zero, A, B, roll_zero. now split. Qed.

(** turned by 45 degrees and without delay the first mode is lost *)
Lemma einsum_loses x om : length x = length om ->
  let (H, h3) := H_PMD (PI / 4) 0 om in applyPMD_einsum [x; silent (length x)] H h3 = Ok [silent (length x); silent (length x)].
Proof.
  intros Hx. pose proof (einsum_eq x (silent (length x)) (PI / 4) 0 om Hx) as E.
  specialize (E ltac:(unfold silent; now rewrite repeat_length)). destruct (H_PMD (PI / 4) 0 om) as [H h3]. rewrite E.
  assert (F : Forall (fun z => z = C0) (fac1 (PI / 4) 0 om)).
  { apply Forall_forall. intros z Hz. unfold fac1 in Hz. apply in_map_iff in Hz. destruct Hz as (w & <- & _).
    replace (- (w * 0 / 2)) with 0 by field. replace (w * 0 / 2) with 0 by field. rewrite Cexpi_0, cos_PI4, sin_PI4. cring. }
  rewrite (cmul_list_zero _ (spectrum x)) by (try exact F; unfold fac1; rewrite map_length, spectrum_length; lia).
  rewrite spectrum_length. unfold silent. destruct (spectrum_zero (length x)) as [Z1 Z2]. rewrite Z1, Z2.
  rewrite cmul_list_comm, cmul_list_zero.
  2:{ unfold fac2. rewrite map_length, repeat_length. lia. }
  2:{ apply Forall_forall. intros z Hz. now apply repeat_spec in Hz. }
  assert (L : length (fac2 (PI / 4) 0 om) = length x) by (unfold fac2; rewrite map_length; lia). rewrite L, Z2.
  cbn [rotate_field]. fold (lin2 (cos (- (PI / 4))) (- sin (- (PI / 4))) (repeat C0 (length x)) (repeat C0 (length x))).
  fold (lin2 (sin (- (PI / 4))) (cos (- (PI / 4))) (repeat C0 (length x)) (repeat C0 (length x))). now rewrite !lin2_zero.
Qed.
Lemma einsum_energy_lost : forall x om, length x = length om -> (exists z, In z x /\ z <> C0) ->
  let (H, h3) := H_PMD (PI / 4) 0 om in exists out, applyPMD_einsum [x; silent (length x)] H h3 = Ok out /\
  field_energy out = 0 /\ 0 < field_energy [x; silent (length x)] /\
  applyPMD_dot [x; silent (length x)] (PI / 4) 0 om = Ok [x; silent (length x)].
Proof.
  intros x om Hx (z & Hz & Hn). pose proof (einsum_loses x om Hx) as E. destruct (H_PMD (PI / 4) 0 om) as [H h3].
  eexists. split; [exact E|]. split; [|split].
  - unfold field_energy. cbn [concat]. rewrite app_nil_r. unfold silent. rewrite <- repeat_app.
    generalize (length x + length x)%nat as n. induction n as [|n IH]; [reflexivity|]. cbn [repeat map]. rewrite Rsum_cons, IH, Cnorm2_0. ring.
  - unfold field_energy. cbn [concat]. rewrite app_nil_r.
    assert (G : forall l : list C, In z l -> 0 < Rsum (map Cnorm2 l)).
    { induction l as [|a l IH]; [intros []|]. intros [<-|K].
      - cbn [map]. rewrite Rsum_cons. pose proof (Cnorm2_nonneg a). assert (0 <= Rsum (map Cnorm2 l)).
        { clear. induction l as [|b l IH]; [cbn; lra|]. cbn [map]. rewrite Rsum_cons. pose proof (Cnorm2_nonneg b). lra. }
        assert (Cnorm2 a <> 0) by (intros K; apply Hn; now apply Cnorm2_zero). lra.
      - cbn [map]. rewrite Rsum_cons. pose proof (Cnorm2_nonneg a). specialize (IH K). lra. }
    apply G. apply in_or_app. now left.
  - apply pmd_zero; [exact Hx|]. unfold silent. now rewrite repeat_length.
Qed.
