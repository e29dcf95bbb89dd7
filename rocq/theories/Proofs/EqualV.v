(** One training step (C79). *)
From Coq Require Import String List ZArith Arith Bool Reals Lia Lra.
From Verif Require Import Common.Py Common.ListX Common.Cplx Common.SumX.
From Verif Require Import Spec.Seq Spec.Equal Model.Decision Model.Equaliser.
From Verif Require Import Proofs.DecisionP Proofs.QualityQ Proofs.EqualP Proofs.EqualQ Proofs.EqualR Proofs.EqualT.
Import ListNotations.

Lemma nth_upd_same {A} m (v : A) l d : m < length l -> nth m (upd m v l) d = v.
Proof. intros H. apply nth_error_nth. now apply upd_nth_same. Qed.

Section Step.
  Context {K : Type} (kz : K) (kadd kmul : K -> K -> K) (kconj : K -> K) (kscal : R -> K -> K).
  Lemma tap_update_cell mu e w X w' p n k i : shape w p n -> shape X p n ->
    tap_update kadd kmul kconj kscal mu e w X = Ok w' -> k < p -> i < n ->
    cell kz w' k i = kadd (cell kz w k i) (kmul (kscal mu e) (kconj (cell kz X k i))).
  Proof.
    intros [Hwl Hw] [HXl HX] H Hk Hi. unfold tap_update in H. unfold cell.
    assert (Hc : nth_error (combine w X) k = Some (nth k w [], nth k X [])).
    { rewrite (nth_error_nth' _ ([], [])) by (rewrite combine_length; lia). f_equal. apply combine_nth. lia. }
    destruct (mapM_nth _ _ _ k _ H Hc) as (r & Hr & Hm). cbn [fst snd] in Hm.
    pose proof (rect_in w n k Hw ltac:(lia)) as L1. pose proof (rect_in X n k HX ltac:(lia)) as L2.
    rewrite L1, L2, Nat.eqb_refl in Hm. injection Hm as Hm. rewrite (nth_error_nth _ _ _ Hr), <- Hm.
    rewrite (nth_indep _ _ (kadd (fst (kz, kz)) (kmul (kscal mu e) (kconj (snd (kz, kz)))))) by (rewrite map_length, combine_length; lia).
    rewrite (map_nth (fun q => kadd (fst q) (kmul (kscal mu e) (kconj (snd q))))), combine_nth by lia. reflexivity.
  Qed.
  Variable errorfct : K -> list K -> nat -> result K.
  Variable adapt : R -> K -> K -> R.
  Lemma comp_step E p l os n t symbols st st' m it i : shape E p l -> shape3 (s_wx st) p p n -> m < p -> i * os + n <= l ->
    run kz kadd kmul kconj kscal errorfct adapt E os n t symbols st [(m, Comp it i)] = Ok st' ->
    exists e sr er, nth_error symbols m = Some sr /\
      errorfct (fsum kz kadd kmul (window E (i * os) n) (nth m (s_wx st) []) p n) sr i = Ok e /\
      (forall k j, k < p -> j < n -> cell kz (nth m (s_wx st') []) k j =
         kadd (cell kz (nth m (s_wx st) []) k j) (kmul (kscal (s_mu st) e) (kconj (cell kz E k (i * os + j))))) /\
      nth_error (s_err st) m = Some er /\ nth_error (s_err st') m = Some (upd (it * t + i) e er) /\ it * t + i < length er /\
      s_mu st' = s_mu st.
  Proof.
    intros HE Hw Hm Hi H. cbn [run bind exec] in H.
    assert (Hsw : shape (nth m (s_wx st) []) p n) by now apply (shape3_nth (s_wx st) p p n).
    assert (HsX : shape (window E (i * os) n) p n) by now apply (window_shape E p l).
    rewrite (getn_nth (s_wx st) m []) in H by (rewrite (proj1 Hw); assumption). cbn [bind] in H.
    rewrite (apply_filter_ok kz kadd kmul _ _ p n HsX Hsw) in H. cbn [bind] in H.
    destruct (getn symbols m) as [sr|] eqn:Es; [cbn [bind] in H|discriminate]. apply getn_inv in Es.
    destruct (errorfct _ sr i) as [e|] eqn:Ee; [cbn [bind] in H|discriminate].
    destruct (getn (s_err st) m) as [er|] eqn:Er; [cbn [bind] in H|discriminate]. apply getn_inv in Er.
    destruct (getn er (it * t + i)) as [z|] eqn:Ez; [cbn [bind] in H|discriminate]. apply getn_inv in Ez.
    match type of H with context [tap_update ?a ?b ?c ?d ?q ?r ?s ?u] => destruct (tap_update a b c d q r s u) as [w'|] eqn:Et end;
      [cbn [bind] in H|discriminate].
    injection H as <-. cbn [s_wx s_err s_mu]. exists e, sr, er. split; [assumption|]. split; [assumption|]. split.
    { intros k j Hk Hj. rewrite nth_upd_same by (rewrite (proj1 Hw); assumption).
      rewrite (tap_update_cell _ _ _ _ _ p n k j Hsw HsX Et Hk Hj). now rewrite window_cell by assumption. }
    split; [assumption|]. split; [|split; [now apply nth_error_Some_lt in Ez|reflexivity]].
    apply upd_nth_same. now apply nth_error_Some_lt in Er.
  Qed.
End Step.

Lemma fir_conj E w p l n s : shape E p l -> (forall k j, k < p -> j < n -> cell C0 w k j = Cconj (cell C0 E k (s + j))) ->
  fir E w n s = RtoC (window_energy E n s).
Proof.
  intros [HE _] H. unfold fir, window_energy. rewrite HE, <- csum_RtoC. apply csum_ext. intros k Hk. rewrite <- csum_RtoC.
  apply csum_ext. intros j Hj. rewrite H by assumption. apply Cmul_conj.
Qed.
Lemma c79 E p l os n t symbols f st st' m it i : shape E p l -> shape3 (s_wx st) p p n -> m < p -> i * os + n <= l ->
  run C0 Cadd Cmul Cconj Cscal f adapt_step E os n t symbols st [(m, Comp it i)] = Ok st' ->
  let w := nth m (s_wx st) [] in let w' := nth m (s_wx st') [] in
  exists e sr er, nth_error symbols m = Some sr /\ f (fir E w n (i * os)) sr i = Ok e /\
    (forall k j, k < p -> j < n -> cell C0 w' k j = (cell C0 w k j + Cscal (s_mu st) e * Cconj (cell C0 E k (i * os + j)))%C) /\
    fir E w' n (i * os) = (fir E w n (i * os) + Cscal (s_mu st * window_energy E n (i * os)) e)%C /\
    nth_error (s_err st) m = Some er /\ nth_error (s_err st') m = Some (upd (it * t + i) e er) /\ it * t + i < length er.
Proof.
  intros HE Hw Hm Hi H w w'. destruct (comp_step _ _ _ _ _ _ _ E p l os n t symbols st st' m it i HE Hw Hm Hi H) as (e & sr & er & H1 & H2 & H3 & H4 & H5 & H6 & _).
  exists e, sr, er. split; [assumption|]. rewrite (fsum_fir E _ p l n _ HE) in H2. split; [assumption|]. split; [assumption|].
  split; [|split; [assumption|split; assumption]].
  set (cw := map (fun k => map (fun j => Cconj (cell C0 E k (i * os + j))) (seq 0 n)) (seq 0 p)).
  assert (Hcw : forall k j, k < p -> j < n -> cell C0 cw k j = Cconj (cell C0 E k (i * os + j))).
  { intros k j Hk Hj. unfold cw. rewrite (table_cell C0 (fun k j => Cconj (cell C0 E k (i * os + j))) (seq 0 p) n k k j); [reflexivity| |assumption].
    now rewrite nth_error_seq by assumption. }
  rewrite (fir_lin_w E w cw w' p l n (i * os) C1 (Cscal (s_mu st) e) HE).
  - rewrite (fir_conj E cw p l n (i * os) HE Hcw). unfold Cscal, RtoC, Cmul, Cadd, C1. cbn [fst snd]. apply (f_equal2 pair); ring.
  - intros k j Hk Hj. unfold w'. rewrite H3, Hcw by assumption. fold w. ring.
Qed.
Local Open Scope R_scope.
Lemma rsum_scal2 a b p n (f g : nat -> nat -> R) :
  rsum p (fun k => rsum n (fun j => a * f k j + b * g k j)) =
  a * rsum p (fun k => rsum n (f k)) + b * rsum p (fun k => rsum n (g k)).
Proof.
  rewrite <- !rsum_scal, <- rsum_add. apply rsum_ext. intros k _. rewrite <- !rsum_scal, <- rsum_add. reflexivity.
Qed.
Lemma c79_real E p l os n t symbols f st st' m it i : shape E p l -> shape3 (s_wx st) p p n -> (m < p)%nat -> (i * os + n <= l)%nat ->
  run 0 Rplus Rmult (fun x => x) Rmult f adapt_step_real E os n t symbols st [(m, Comp it i)] = Ok st' ->
  let w := nth m (s_wx st) [] in let w' := nth m (s_wx st') [] in
  exists e sr er, nth_error symbols m = Some sr /\ f (fir_real E w n (i * os)) sr i = Ok e /\
    (forall k j, (k < p)%nat -> (j < n)%nat -> cell 0 w' k j = cell 0 w k j + s_mu st * e * cell 0 E k (i * os + j)) /\
    fir_real E w' n (i * os) = fir_real E w n (i * os) + s_mu st * window_energy_real E n (i * os) * e /\
    nth_error (s_err st) m = Some er /\ nth_error (s_err st') m = Some (upd (it * t + i) e er) /\ (it * t + i < length er)%nat.
Proof.
  intros HE Hw Hm Hi H w w'. destruct (comp_step _ _ _ _ _ _ _ E p l os n t symbols st st' m it i HE Hw Hm Hi H) as (e & sr & er & H1 & H2 & H3 & H4 & H5 & H6 & _).
  exists e, sr, er. split; [assumption|]. rewrite (fsum_fir_real E _ p l n _ HE) in H2. split; [assumption|]. split; [assumption|].
  split; [|split; [assumption|split; assumption]].
  unfold fir_real, window_energy_real. rewrite (proj1 HE).
  transitivity (rsum p (fun k => rsum n (fun j => 1 * (cell 0 E k (i * os + j) * cell 0 w k j) + (s_mu st * e) * (cell 0 E k (i * os + j) * cell 0 E k (i * os + j))))).
  - apply rsum_ext. intros k Hk. apply rsum_ext. intros j Hj. unfold w'. rewrite H3 by assumption. fold w. ring.
  - rewrite rsum_scal2. ring.
Qed.
(** consequences for the decision-directed and the constant-modulus errors *)
Lemma c79_dd E p l os n t symbols st st' m it i f sr : shape E p l -> shape3 (s_wx st) p p n -> (m < p)%nat -> (i * os + n <= l)%nat ->
  select_error "dd" = Ok f -> nth_error symbols m = Some sr ->
  let x := fir E (nth m (s_wx st) []) n (i * os) in
  (exists a, In a sr /\ Cabs (x - a)%C ^ 2 < 1000) ->
  run C0 Cadd Cmul Cconj Cscal f adapt_step E os n t symbols st [(m, Comp it i)] = Ok st' ->
  exists s, nearest_symbol sr x s /\
    (s - fir E (nth m (s_wx st') []) n (i * os))%C = Cscal (1 - s_mu st * window_energy E n (i * os)) (s - x)%C.
Proof.
  intros HE Hw Hm Hi Hf Hs x Hnear H. injection Hf as <-.
  destruct (c79 E p l os n t symbols ddlms_error st st' m it i HE Hw Hm Hi H) as (e & sr' & er & H1 & H2 & _ & H3 & _).
  rewrite Hs in H1. injection H1 as <-. exists (fst (det_symbol x sr)). split; [now apply det_symbol_near|].
  fold x in H2, H3. unfold ddlms_error in H2. injection H2 as <-. rewrite H3.
  unfold Cscal, Csub, Cadd. cbn [fst snd]. apply (f_equal2 pair); ring.
Qed.
Lemma c79_cma E p l os n t symbols st st' m it i f r rs : shape E p l -> shape3 (s_wx st) p p n -> (m < p)%nat -> (i * os + n <= l)%nat ->
  select_error "cma" = Ok f -> nth_error symbols m = Some (r :: rs) ->
  run C0 Cadd Cmul Cconj Cscal f adapt_step E os n t symbols st [(m, Comp it i)] = Ok st' ->
  let x := fir E (nth m (s_wx st) []) n (i * os) in
  fir E (nth m (s_wx st') []) n (i * os) = Cscal (1 + s_mu st * window_energy E n (i * os) * (Re r - Cnorm2 x)) x.
Proof.
  intros HE Hw Hm Hi Hf Hs H x. injection Hf as <-.
  destruct (c79 E p l os n t symbols cma_error st st' m it i HE Hw Hm Hi H) as (e & sr' & er & H1 & H2 & _ & H3 & _).
  rewrite Hs in H1. injection H1 as <-. fold x in H2, H3. unfold cma_error in H2. cbn [getn nth_error bind] in H2.
  rewrite Cabs_pow2 in H2. injection H2 as <-. rewrite H3. unfold Cscal, Cadd. cbn [fst snd]. apply (f_equal2 pair); ring.
Qed.
