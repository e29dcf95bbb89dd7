(** Statements of the impairment properties assembled from the previous files. *)
From Coq Require Import List ZArith Arith Bool Reals Lra Lia Psatz.
From Coq Require Import ZifyBool ZifyNat ZifyN.
From Verif Require Import Common.Py Common.Cplx Common.SumX Common.Angle Common.ListX Common.Dft
  Model.Helpers Model.Phase Model.Impair Spec.Seq Spec.Equal Spec.ImpairSpec Spec.PhaseSpec Proofs.PhaseQ Proofs.ImpairP Proofs.ImpairQ Proofs.ImpairR Proofs.ImpairS.
Import ListNotations.
Local Open Scope R_scope.

Lemma rotate_all E theta N : shape E 2 N -> exists x y x' y', E = [x; y] /\ rotate_field E theta = Ok [x'; y'] /\ shape [x'; y'] 2 N /\
  (forall k a b, nth_error x k = Some a -> nth_error y k = Some b -> exists a' b',
     nth_error x' k = Some a' /\ nth_error y' k = Some b' /\
     a' = (Cscal (cos theta) a - Cscal (sin theta) b)%C /\ b' = (Cscal (sin theta) a + Cscal (cos theta) b)%C /\
     Cnorm2 a' + Cnorm2 b' = Cnorm2 a + Cnorm2 b) /\
  rotate_field [x'; y'] (- theta) = Ok E.
Proof.
  intros H. destruct (two_rows E N H) as (x & y & -> & Lx & Ly).
  destruct (rotate_power x y theta) as (x' & y' & E1 & L1 & L2 & P); [congruence|].
  exists x, y, x', y'. split; [reflexivity|]. split; [exact E1|]. split.
  - split; [reflexivity|]. constructor; [congruence|]. constructor; [congruence|constructor].
  - split; [exact P|]. pose proof (rotate_inverse [x; y] theta N H) as I. rewrite E1 in I. exact I.
Qed.

Lemma add_disp1 row fs D L wl0 : add_dispersion (D1 row) fs D L wl0 = D1 (disp1 fs D L wl0 row).
Proof. reflexivity. Qed.
(** frequency of bin k *)
Lemma freq_bin_val N k : (k < N)%nat -> freq_bin N k = if (2 * k <? N)%nat then Z.of_nat k else (Z.of_nat k - Z.of_nat N)%Z.
Proof.
  intros H. unfold freq_bin.
  destruct (Nat.ltb_spec (2 * k) N) as [h|h].
  - assert (k < (N + 1) / 2)%nat by (apply Nat.div_le_lower_bound; lia) || idtac.
    match goal with |- (if ?c then _ else _) = _ => destruct c eqn:Ec end; [reflexivity|exfalso].
    revert Ec. try rewrite Nat.ltb_ge. intros. pose proof (Nat.div_mod (N + 1) 2). pose proof (Nat.mod_upper_bound (N + 1) 2). lia.
  - match goal with |- (if ?c then _ else _) = _ => destruct c eqn:Ec end; [exfalso|reflexivity].
    apply Nat.ltb_lt in Ec. pose proof (Nat.div_mod (N + 1) 2). pose proof (Nat.mod_upper_bound (N + 1) 2). lia.
Qed.
Lemma disp_tone N k fs D L wl0 a : (k < N)%nat -> fs <> 0 ->
  let f := IZR (if (2 * k <? N)%nat then Z.of_nat k else (Z.of_nat k - Z.of_nat N)%Z) * fs / INR N in
  add_dispersion (D1 (map (Cmul a) (tone N k))) fs D L wl0 =
  D1 (map (Cmul (Cexpi (- (D * wl0 ^ 2 * L * (2 * PI * f) ^ 2 / (4 * PI * 299792458))))) (map (Cmul a) (tone N k))).
Proof.
  intros H Hfs f. rewrite add_disp1, disp1_tone by exact H. rewrite disp_H_nth by exact H. rewrite freq_bin_val by exact H.
  f_equal. f_equal. f_equal. f_equal. f_equal. unfold f.
  assert (0 < INR N) by (apply lt_0_INR; lia). pose proof PI_RGT_0. field. repeat split; lra.
Qed.
Lemma disp_one row fs D L wl0 : exists out, add_dispersion (D1 row) fs D L wl0 = D1 out /\ length out = length row /\
  field_energy [out] = field_energy [row] /\ add_dispersion (D1 out) fs (- D) L wl0 = D1 row /\
  (D * L = 0 -> out = row).
Proof.
  rewrite add_disp1. exists (disp1 fs D L wl0 row).
  split; [reflexivity|]. split; [apply disp1_length|]. split; [|split].
  - pose proof (disp1_energy fs D L wl0 row) as H. unfold field_energy. cbn [concat]. rewrite !app_nil_r. exact H.
  - rewrite add_disp1, disp1_add, disp1_zero by ring. reflexivity.
  - apply disp1_zero.
Qed.
Lemma disp_even_back rows fs D L wl0 : Nat.Even (length rows) -> exists out, add_dispersion (D2 rows) fs D L wl0 = D2 out /\
  add_dispersion (D2 out) fs (- D) L wl0 = D2 rows.
Proof.
  intros H. pose proof (disp_even rows fs D (- D) L wl0 H) as E. rewrite add_disp2 in *. eexists. split; [reflexivity|].
  rewrite E. f_equal. rewrite <- (map_id rows) at 2. apply map_ext. intros r. apply disp1_zero. ring.
Qed.
Lemma disp_swap x y fs L wl0 : add_dispersion (D2 [x; y]) fs 0 L wl0 = D2 [y; x].
Proof. rewrite add_disp2. cbn [map]. rewrite !disp1_zero by ring. reflexivity. Qed.
Lemma disp_three x y z fs D L wl0 : exists out, add_dispersion (D2 [x; y; z]) fs D L wl0 = D2 out /\
  add_dispersion (D2 out) fs (- D) L wl0 = D2 [y; z; x].
Proof.
  rewrite add_disp2. eexists. split; [reflexivity|]. rewrite add_disp2. f_equal.
  change (fftshift (map (disp1 fs (- D) L wl0) [disp1 fs D L wl0 z; disp1 fs D L wl0 x; disp1 fs D L wl0 y]) = [y; z; x]).
  cbn [map]. rewrite !disp1_add. rewrite !disp1_zero by ring. reflexivity.
Qed.
Lemma disp_single row fs D L wl0 : exists out, add_dispersion (D2 [row]) fs D L wl0 = D2 [out] /\ add_dispersion (D1 row) fs D L wl0 = D1 out.
Proof. rewrite add_disp2. cbn [map add_dispersion]. eexists. split; [|reflexivity]. reflexivity. Qed.

(** ** quantisers *)
Lemma quant_half b : (1 <= b)%nat -> exists x y, within 1 x /\ quantize_signal [[x]] b false false = Ok ([[Some y]], [[Some x]]) /\
  ~ near ((2 / (INR (2 ^ b) - 1)) / 2) x y.
Proof.
  intros Hb.
  assert (Hn : (2 <= 2 ^ b)%nat) by (destruct b as [|b]; [lia|]; cbn [Nat.pow]; pose proof (pow2_pos b); lia).
  assert (HnR : 2 <= INR (2 ^ b)) by (change 2 with (INR 2); apply le_INR; exact Hn).
  set (step := 2 / (INR (2 ^ b) - 1)).
  assert (Hst : 0 < step) by (unfold step; apply Rdiv_lt_0_compat; lra).
  assert (Hst2 : step <= 2).
  { unfold step. apply (Rmult_le_reg_r (INR (2 ^ b) - 1)); [lra|]. unfold Rdiv. rewrite Rmult_assoc, Rinv_l by lra. lra. }
  assert (Hx : within 1 (-1 + step / 4, 0)).
  { split; cbn [fst snd]; [apply Rabs_le; lra|rewrite Rabs_R0; lra]. }
  exists (-1 + step / 4, 0).
  destruct (quant_old b [[(-1 + step / 4, 0)]] Hb) as (out & E & F).
  { constructor; [|constructor]. constructor; [exact Hx|constructor]. }
  fold step in F. inversion F as [|r o ro os Fr Fo]; subst. inversion Fo; subst. inversion Fr as [|u y us ys Fu Fv]; subst. inversion Fv; subst.
  exists y. split; [exact Hx|]. split; [exact E|].
  destruct Fu as [[B1 B2] [(k & Hk & K) _]]. cbn [fst snd] in *. intros [N1 _]. cbn [fst snd] in N1.
  destruct k as [|k]; [rewrite K in B1; cbn [INR] in B1; lra|].
  rewrite S_INR in K. pose proof (pos_INR k) as P.
  rewrite Rabs_right in N1 by lra. assert (0 <= INR k * step) by (apply Rmult_le_pos; lra). lra.
Qed.
Lemma Forall2_weaken {A B} (P Q : A -> B -> Prop) l m : (forall a b, P a b -> Q a b) -> Forall2 P l m -> Forall2 Q l m.
Proof. intros H F. induction F; constructor; auto. Qed.
Lemma quant_new_common b sig M : 0 < M -> sig <> [] -> (forall row, In row sig -> peak M row) ->
  exists out, quantize_signal_New true sig b true true = Ok out /\
    Forall2 (Forall2 (fun x y => near (M / INR (2 ^ b)) x y /\ on_levels (M * (-1 + / INR (2 ^ b))) (2 * M / INR (2 ^ b)) (2 ^ b) y)) sig out.
Proof.
  intros HM Hne H.
  destruct (quant_new b sig (repeat M (length sig)) M HM (peak_concat sig M Hne H)) as (out & E & L & F).
  - clear Hne. induction sig as [|r sig IH]; [constructor|]. cbn [length repeat]. constructor; [split; [exact HM|apply H; left; reflexivity]|].
    apply IH. intros. apply H. right. assumption.
  - exists out. split; [exact E|]. apply Forall2_from_nth; [congruence|]. intros k row row' Hr Hr'.
    destruct (F k row M Hr) as (r2 & E2 & G).
    { rewrite nth_error_repeat; [reflexivity|]. apply nth_error_Some_lt in Hr. exact Hr. }
    rewrite E2 in Hr'. injection Hr' as <-. eapply Forall2_weaken; [|exact G]. cbn beta. intros x y [A B]. split; [|exact B].
    replace (Cscal (M / M) x) with x in A; [exact A|]. apply C_eq; unfold Cscal; cbn [fst snd]; field; lra.
Qed.
Lemma peak_one x : 0 <= x -> peak x [(x, 0)].
Proof.
  intros H. split.
  - intros z [<-|[]]. split; cbn [fst snd]; [rewrite Rabs_right; lra|rewrite Rabs_R0; lra].
  - exists (x, 0). split; [left; reflexivity|]. left. cbn [fst]. apply Rabs_right. lra.
Qed.
Lemma quant_new_unequal b : (2 <= b)%nat -> exists y1 y2, quantize_signal_New true [[(1, 0)]; [(1 / 4, 0)]] b true true = Ok [[y1]; [y2]] /\
  ~ near (1 / INR (2 ^ b)) (1 / 4, 0) y2.
Proof.
  intros Hb.
  assert (Hn : (4 <= 2 ^ b)%nat) by (change 4%nat with (2 ^ 2)%nat; apply Nat.pow_le_mono_r; lia).
  assert (HnR : 4 <= INR (2 ^ b)) by (replace 4 with (INR 4) by (cbn [INR]; lra); apply le_INR; exact Hn).
  destruct (quant_new b [[(1, 0)]; [(1 / 4, 0)]] [1; 1 / 4] 1 ltac:(lra)) as (out & E & L & F).
  - cbn [concat app]. split.
    + intros z [<-|[<-|[]]]; split; cbn [fst snd]; try (rewrite Rabs_R0; lra); rewrite Rabs_right; lra.
    + exists (1, 0). split; [left; reflexivity|]. left. apply Rabs_right. cbn. lra.
  - constructor; [split; [lra|apply peak_one; lra]|]. constructor; [split; [lra|apply peak_one; lra]|constructor].
  - destruct (F 0%nat _ _ eq_refl eq_refl) as (r1 & E1 & F1). destruct (F 1%nat _ _ eq_refl eq_refl) as (r2 & E2 & F2).
    destruct out as [|o1 [|o2 [|o3 out]]]; try discriminate. cbn in E1, E2. injection E1 as ->. injection E2 as ->.
    inversion F1 as [|u y1 us ys G1 G1']; subst. inversion G1'; subst. inversion F2 as [|u y2 us ys G2 G2']; subst. inversion G2'; subst.
    exists y1, y2. split; [exact E|]. destruct G2 as [[N1 _] _]. cbn [Cscal fst snd] in N1. intros [M1 _]. cbn [fst snd] in M1.
    replace (1 / (1 / 4) * (1 / 4)) with 1 in N1 by field.
    assert (Hq : 1 / INR (2 ^ b) <= 1 / 4) by (apply Rmult_le_compat_l; [lra|]; apply Rinv_le_contravar; lra).
    unfold Rabs in *. destruct (Rcase_abs (fst y2 - 1)); destruct (Rcase_abs (fst y2 - 1 / 4)); lra.
Qed.

(** ** modulator *)
Lemma modulator_all sig : modulator_response sig (1, 0) (1, 0) (0, 0) (1 / 2) 1 =
  map (map (fun z => (sin (PI / 2 * fst z) / 2, sin (PI / 2 * snd z) / 2))) sig.
Proof. unfold modulator_response. apply map_ext. intros row. apply map_ext. intros z. apply modulator_ideal. Qed.
Lemma default_vpi : 2 / PI < 114 / 100 < 4 / PI.
Proof.
  pose proof PI_upper. pose proof PI2_1. pose proof PI_RGT_0.
  split; apply (Rmult_lt_reg_r PI); try lra; unfold Rdiv; rewrite (Rmult_assoc _ (/ PI)), Rinv_l by lra; lra.
Qed.
Lemma vpi_one : 2 / PI < 1 < 4 / PI.
Proof.
  pose proof PI_upper. pose proof PI2_1. pose proof PI_RGT_0.
  split; apply (Rmult_lt_reg_r PI); try lra; unfold Rdiv; rewrite (Rmult_assoc _ (/ PI)), Rinv_l by lra; lra.
Qed.
