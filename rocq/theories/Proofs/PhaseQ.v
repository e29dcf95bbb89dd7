(** Unwrapping, rotations, the blind phase search wrapper, Viterbi-Viterbi, frequency offsets. *)
From Coq Require Import String List Arith ZArith Lia Reals Lra.
From Verif Require Import Common.Py Common.ListX Common.Cplx Common.SumX Common.Angle Model.Decision Model.Windows Model.Quality
  Model.Sync Model.Pilots Model.Phase Spec.Seq Spec.Equal Spec.Win Spec.PhaseSpec Proofs.WindowsP Proofs.PhaseP.
Import ListNotations.
Local Open Scope R_scope.

(** ** unwrap *)
Lemma rmod_spec x y : 0 < y -> 0 <= rmod x y < y /\ exists k : Z, rmod x y = x - y * IZR k.
Proof.
  intros Hy. unfold rmod. destruct (base_Int_part (x / y)) as [H1 H2].
  assert (Hx : x = x / y * y) by (field; lra).
  split; [|exists (Int_part (x / y)); reflexivity].
  set (k := IZR (Int_part (x / y))) in *. clearbody k. set (q := x / y) in *. clearbody q. subst x. split; nra.
Qed.
Lemma wrap_corr_spec dd : turns (wrap_corr dd) /\ Rabs (dd + wrap_corr dd) <= PI.
Proof.
  pose proof PI_RGT_0 as Hpi. unfold wrap_corr. destruct (Rlt_dec (Rabs dd) PI) as [H|H].
  - split; [apply turns_0|]. rewrite Rplus_0_r. lra.
  - cbv zeta. destruct (rmod_spec (dd + PI) (2 * PI) ltac:(lra)) as [Hb [k Hk]].
    set (m := rmod (dd + PI) (2 * PI)) in *. clearbody m.
    destruct (Req_EM_T (m - PI) (- PI)) as [He|He]; [destruct (Rlt_dec 0 dd) as [Hd|Hd]|].
    + split.
      * exists (1 - k)%Z. rewrite minus_IZR. lra.
      * replace (dd + (PI - dd)) with PI by ring. rewrite Rabs_right; lra.
    + split.
      * exists (- k)%Z. rewrite opp_IZR. lra.
      * replace (dd + (m - PI - dd)) with (m - PI) by ring. apply Rabs_le. lra.
    + split.
      * exists (- k)%Z. rewrite opp_IZR. lra.
      * replace (dd + (m - PI - dd)) with (m - PI) by ring. apply Rabs_le. lra.
Qed.
Lemma unwrap_from_spec l : forall prev corr, turns corr ->
  Forall2 (fun x y => turns (y - x)) l (unwrap_from prev corr l) /\
  forall i a b, nth_error ((prev + corr) :: unwrap_from prev corr l) i = Some a ->
    nth_error ((prev + corr) :: unwrap_from prev corr l) (S i) = Some b -> Rabs (b - a) <= PI.
Proof.
  induction l as [|x l IH]; intros prev corr Hc; cbn [unwrap_from]; cbv zeta.
  - split; [constructor|]. intros i a b _ H. cbn in H. destruct i; discriminate.
  - destruct (wrap_corr_spec (x - prev)) as [Ht Hb].
    destruct (IH x (corr + wrap_corr (x - prev)) (turns_add _ _ Hc Ht)) as [IH1 IH2].
    split.
    + constructor; [|exact IH1]. replace (x + (corr + wrap_corr (x - prev)) - x) with (corr + wrap_corr (x - prev)) by ring.
      apply turns_add; assumption.
    + intros [|i] a b Ha Hb'.
      * cbn in Ha, Hb'. injection Ha as <-. injection Hb' as <-.
        replace (x + (corr + wrap_corr (x - prev)) - (prev + corr)) with (x - prev + wrap_corr (x - prev)) by ring. exact Hb.
      * apply (IH2 i); assumption.
Qed.
Lemma unwrap_ok l : unwrapped l (unwrap l).
Proof.
  destruct l as [|x l]; cbn [unwrap].
  - split; [constructor|]. split; [reflexivity|]. intros i a b _ H. destruct i; discriminate.
  - destruct (unwrap_from_spec l x 0 turns_0) as [H1 H2]. rewrite Rplus_0_r in H2. split; [|split; [reflexivity|exact H2]].
    constructor; [|exact H1]. replace (x - x) with 0 by ring. apply turns_0.
Qed.
Lemma Forall2_length' {A B} (P : A -> B -> Prop) l l' : Forall2 P l l' -> length l = length l'.
Proof. induction 1; cbn; congruence. Qed.
Lemma Forall2_nth {A B} (P : A -> B -> Prop) l l' : Forall2 P l l' -> forall i a b, nth_error l i = Some a -> nth_error l' i = Some b -> P a b.
Proof.
  induction 1 as [|x y l l' Hxy H IH]; intros [|i] a b H1 H2; cbn in *; try discriminate.
  - injection H1 as <-. injection H2 as <-. exact Hxy.
  - eapply IH; eassumption.
Qed.
Lemma Forall2_from_nth {A B} (P : A -> B -> Prop) : forall l l', length l = length l' ->
  (forall i a b, nth_error l i = Some a -> nth_error l' i = Some b -> P a b) -> Forall2 P l l'.
Proof.
  induction l as [|x l IH]; intros [|y l'] Hl H; cbn in Hl; try discriminate; constructor.
  - apply (H 0%nat); reflexivity.
  - apply IH; [congruence|]. intros i. apply (H (S i)).
Qed.
Lemma unwrap_length l : length (unwrap l) = length l.
Proof. symmetry. eapply Forall2_length'. apply unwrap_ok. Qed.

(** unwrapping recovers any phase sequence with steps below half a turn, up to one constant *)
Lemma unwrap_tracks (f phi : nat -> R) Q : (1 <= Q)%nat -> (forall q, (q < Q)%nat -> turns (f q - phi q)) ->
  (forall q, (S q < Q)%nat -> Rabs (phi (S q) - phi q) < PI) ->
  unwrap (frow Q f) = frow Q (fun q => phi q + (f 0%nat - phi 0%nat)).
Proof.
  intros HQ Ht Hs. destruct (unwrap_ok (frow Q f)) as (H1 & H2 & H3).
  assert (Hl : length (unwrap (frow Q f)) = Q) by (rewrite unwrap_length; apply frow_length).
  apply nth_error_ext_lt; [rewrite Hl, frow_length; reflexivity|]. rewrite Hl. intros i.
  induction i as [|i IH]; intros Hi.
  - rewrite H2, !frow_nth by exact Hi. f_equal. ring.
  - specialize (IH ltac:(lia)). rewrite frow_nth in IH by lia.
    destruct (nth_error_lt_Some (unwrap (frow Q f)) (S i) ltac:(lia)) as [b Hb].
    pose proof (H3 i _ b IH Hb) as Hst.
    pose proof (Forall2_nth _ _ _ H1 (S i) _ _ (frow_nth Q f (S i) Hi) Hb) as Htb.
    pose proof (Ht (S i) Hi) as Hti. pose proof (Ht 0%nat ltac:(lia)) as Ht0.
    pose proof (Hs i Hi) as Hsi.
    rewrite Hb, frow_nth by exact Hi. f_equal.
    assert (Hz : b - (phi (S i) + (f 0%nat - phi 0%nat)) = 0).
    { apply small_turn.
      - replace (b - (phi (S i) + (f 0%nat - phi 0%nat))) with ((b - f (S i)) + (f (S i) - phi (S i)) - (f 0%nat - phi 0%nat)) by ring.
        apply turns_sub; [apply turns_add|]; assumption.
      - apply Rabs_def2 in Hsi.
        unfold Rabs in Hst. destruct (Rcase_abs _); lra. }
    lra.
Qed.

(** ** rotations *)
Lemma combine_nth' {A B} : forall (a : list A) (b : list B) i x y, nth_error a i = Some x -> nth_error b i = Some y ->
  nth_error (combine a b) i = Some (x, y).
Proof.
  induction a as [|a0 a IH]; intros [|b0 b] [|i] x y H1 H2; cbn in *; try discriminate; [congruence|].
  apply IH; assumption.
Qed.
Lemma rotate_row_spec row ph out : rotate_row row ph = Ok out ->
  length ph = length row /\ length out = length row /\
  forall n s p, nth_error row n = Some s -> nth_error ph n = Some p -> nth_error out n = Some (s * Cexpi p)%C.
Proof.
  unfold rotate_row. destruct (Nat.eqb_spec (length row) (length ph)) as [H|H]; [|discriminate].
  intros E. injection E as <-. split; [congruence|]. split; [rewrite map_length, combine_length; lia|].
  intros n s p Hs Hp. rewrite nth_error_map, (combine_nth' _ _ _ _ _ Hs Hp). reflexivity.
Qed.
Lemma rotate_row_ok row ph : length row = length ph -> exists out, rotate_row row ph = Ok out.
Proof. intros H. unfold rotate_row. rewrite H, Nat.eqb_refl. eexists. reflexivity. Qed.

Lemma rotate_rows_spec E ph out : rotate_rows E ph = Ok out ->
  length ph = length E /\
  (forall k row pr, nth_error E k = Some row -> nth_error ph k = Some pr -> length pr = length row) /\
  rotated_by (fun k n => cell 0 ph k n) E out.
Proof.
  unfold rotate_rows, rowwise. destruct (Nat.eqb_spec (length E) (length ph)) as [H|H]; [|discriminate]. cbn [negb].
  intros Hm. pose proof (mapM_length _ _ _ Hm) as Hl. rewrite combine_length in Hl.
  assert (Hrow : forall k row pr, nth_error E k = Some row -> nth_error ph k = Some pr ->
    exists r', nth_error out k = Some r' /\ rotate_row row pr = Ok r').
  { intros k row pr Hk Hp. pose proof (combine_nth' _ _ _ _ _ Hk Hp) as Hc.
    destruct (mapM_nth _ _ _ k _ Hm Hc) as (r' & Hr1 & Hr2). exists r'. cbn [fst snd] in Hr2. split; assumption. }
  split; [congruence|]. split.
  - intros k row pr Hk Hp. destruct (Hrow k row pr Hk Hp) as (r' & _ & Hr). apply rotate_row_spec in Hr. tauto.
  - split; [lia|]. intros k row Hk.
    destruct (nth_error_lt_Some ph k) as [pr Hp]; [apply nth_error_Some_lt in Hk; lia|].
    destruct (Hrow k row pr Hk Hp) as (r' & Hr & Hrot). apply rotate_row_spec in Hrot as (H1 & H2 & H3).
    exists r'. split; [exact Hr|]. split; [exact H2|]. intros n s Hs. 
    destruct (nth_error_lt_Some pr n) as [p Hpn]; [apply nth_error_Some_lt in Hs; lia|].
    rewrite (H3 n s p Hs Hpn). unfold cell. rewrite (nth_error_nth ph k [] Hp), (nth_error_nth pr n 0 Hpn). reflexivity.
Qed.
Lemma rotate_rows_ok E ph : Forall2 (fun a b => length a = length b) E ph -> exists out, rotate_rows E ph = Ok out.
Proof.
  intros H. unfold rotate_rows, rowwise. rewrite (Forall2_length' _ _ _ H), Nat.eqb_refl. cbn [negb].
  induction H as [|a b E ph Hab H IH]; [eexists; reflexivity|]. cbn [combine mapM fst snd].
  destruct (rotate_row_ok a b Hab) as [r ->]. destruct IH as [rs ->]. eexists. reflexivity.
Qed.

Lemma Cabs_rot s t : Cabs (s * Cexpi t)%C = Cabs s.
Proof. rewrite Cabs_mul, Cabs_expi. ring. Qed.
Lemma rotated_same_modulus ph inp out : rotated_by ph inp out -> same_modulus inp out.
Proof.
  intros [Hl H]. apply Forall2_from_nth; [congruence|]. intros k row row' Hk Hk'.
  destruct (H k row Hk) as (r & Hr & Hlen & Hn). rewrite Hr in Hk'. injection Hk' as <-.
  apply Forall2_from_nth; [congruence|]. intros n a b Ha Hb. rewrite (Hn n a Ha) in Hb. injection Hb as <-. apply Cabs_rot.
Qed.

Lemma same_mod_bps E M symbols N method out ph : core_bps E M symbols N method = Ok (out, ph) ->
  same_modulus E out /\ rotated_by (fun k n => cell 0 ph k n) E out.
Proof.
  unfold core_bps. destruct (bps_fct method) as [fct|]; [|discriminate]. cbn [bind].
  destruct (mapM _ E) as [ph'|] eqn:Ep; [|discriminate]. cbn [bind].
  destruct (rotate_rows E ph') as [out'|] eqn:Er; [|discriminate]. cbn [bind]. intros H. injection H as <- <-.
  apply rotate_rows_spec in Er as (_ & _ & Hr). split; [eapply rotated_same_modulus; exact Hr|exact Hr].
Qed.

Lemma comp_row_nth (g : nat -> R) s0 row n s : nth_error row n = Some s ->
  nth_error (map (fun p => (snd p * Cexpi (g (fst p)))%C) (combine (seq s0 (length row)) row)) n = Some (s * Cexpi (g (s0 + n)%nat))%C.
Proof.
  intros Hs. rewrite nth_error_map.
  rewrite (combine_nth' _ _ n (s0 + n)%nat s); [reflexivity| |exact Hs].
  apply nth_error_seq. eapply nth_error_Some_lt; exact Hs.
Qed.
Lemma comp_freq_rot sig fo os : (length sig <= length fo)%nat -> exists out, comp_freq_offset sig fo os = Ok out /\
  rotated_by (fun k n => - (2 * PI * INR (n + 1) * nth k fo 0 / os)) sig out.
Proof.
  intros Hl.
  assert (Hm : comp_freq_offset sig fo os = Ok (map (fun k => map (fun p => (snd p * Cexpi (- (2 * PI * INR (fst p) * nth k fo 0 / os)))%C)
       (combine (seq 1 (length (nth k sig []))) (nth k sig []))) (seq 0 (length sig)))).
  { unfold comp_freq_offset. apply mapM_ok. intros k Hk. apply in_seq in Hk. unfold getn.
    rewrite (nth_error_nth' sig []) by lia. cbn [bind]. rewrite (nth_error_nth' fo 0) by lia. reflexivity. }
  eexists. split; [exact Hm|]. split; [rewrite map_length, seq_length; reflexivity|].
  intros k row Hk. pose proof (nth_error_Some_lt _ _ _ Hk) as Hlt. eexists. split.
  { rewrite nth_error_map_seq by exact Hlt. reflexivity. }
  rewrite Nat.add_0_l, (nth_error_nth sig k [] Hk). split.
  - rewrite map_length, combine_length, seq_length. lia.
  - intros n s Hs. rewrite (comp_row_nth (fun p => - (2 * PI * INR p * nth k fo 0 / os)) 1 row n s Hs).
    replace (1 + n)%nat with (n + 1)%nat by lia. reflexivity.
Qed.
Lemma comp_freq_short sig fo os : (length fo < length sig)%nat -> exists e, comp_freq_offset sig fo os = Err e.
Proof.
  intros H. unfold comp_freq_offset.
  assert (Hk : In (length fo) (seq 0 (length sig))) by (apply in_seq; lia).
  revert Hk. generalize (seq 0 (length sig)). intros l. induction l as [|k l IH]; intros Hk; [destruct Hk|].
  cbn [mapM]. match goal with |- context [bind ?r _] => destruct r as [b|e] eqn:E end; [|eexists; reflexivity].
  destruct Hk as [->|Hk].
  - exfalso. destruct (getn sig (length fo)); [|discriminate]. cbn [bind] in E. unfold getn in E.
    rewrite (proj2 (nth_error_None fo (length fo)) (le_n _)) in E. discriminate.
  - destruct (IH Hk) as [e ->]. eexists. reflexivity.
Qed.
Lemma carrier_rot sig fo fs : rotated_by (fun _ n => 2 * PI * INR n * fo / fs) sig (add_carrier_offset sig fo fs).
Proof.
  unfold add_carrier_offset. split; [apply map_length|]. intros k row Hk. rewrite nth_error_map, Hk.
  eexists. split; [reflexivity|]. split; [rewrite map_length, combine_length, seq_length; lia|].
  intros n s Hs. exact (comp_row_nth (fun p => 2 * PI * INR p * fo / fs) 0 row n s Hs).
Qed.

Lemma rcumsum_length l : forall a, length (rcumsum a l) = length l.
Proof. induction l as [|x l IH]; intros a; cbn; [reflexivity|]. rewrite IH. reflexivity. Qed.
Lemma rcumsum_nth l : forall a n, (n < length l)%nat -> nth_error (rcumsum a l) n = Some (a + Rsum (firstn (S n) l)).
Proof.
  induction l as [|x l IH]; intros a n Hn; cbn in Hn; [lia|]. cbn [rcumsum].
  destruct n as [|n].
  - cbn [nth_error firstn Rsum fold_right]. f_equal. unfold Rsum. cbn [fold_right]. ring.
  - cbn [nth_error]. rewrite IH by lia. f_equal. rewrite (firstn_cons (S n) x l), Rsum_cons. ring.
Qed.
(** the phase of sample n is the sum of the first n+1 steps, a Wiener process *)
Lemma phase_noise_rot sig g df fs : Forall2 (fun a b => length a = length b) sig g ->
  exists out, apply_phase_noise sig g df fs = Ok out /\
    rotated_by (fun k n => sqrt (2 * PI * df / fs) * Rsum (firstn (S n) (nth k g []))) sig out.
Proof.
  intros H. unfold apply_phase_noise.
  assert (Hs : Forall2 (fun a b => length a = length b) sig (phase_noise g df fs)).
  { unfold phase_noise. induction H as [|a b sig g Hab H IH]; constructor; [|exact IH].
    rewrite rcumsum_length, map_length. exact Hab. }
  destruct (rotate_rows_ok _ _ Hs) as [out Ho]. exists out. split; [exact Ho|].
  apply rotate_rows_spec in Ho as (_ & _ & Hl & Hr). split; [exact Hl|].
  intros k row Hk. destruct (Hr k row Hk) as (r' & Hr1 & Hr2 & Hr3). exists r'. split; [exact Hr1|]. split; [exact Hr2|].
  intros n s Hn. rewrite (Hr3 n s Hn). repeat f_equal.
  assert (Hg : exists gr, nth_error g k = Some gr /\ length gr = length row).
  { destruct (nth_error_lt_Some g k) as [gr Hg]; [rewrite <- (Forall2_length' _ _ _ H); eapply nth_error_Some_lt; exact Hk|].
    exists gr. split; [exact Hg|]. symmetry. exact (Forall2_nth _ _ _ H k _ _ Hk Hg). }
  destruct Hg as (gr & Hg & Hlg). unfold cell, phase_noise.
  rewrite (nth_error_nth (map _ g) k [] (x := rcumsum 0 (map (fun x => sqrt (2 * PI * df / fs) * x) gr))) by (rewrite nth_error_map, Hg; reflexivity).
  rewrite (nth_error_nth g k [] Hg).
  assert (Hnl : (n < length gr)%nat) by (rewrite Hlg; eapply nth_error_Some_lt; exact Hn).
  rewrite (nth_error_nth _ n 0 (rcumsum_nth _ 0 n ltac:(rewrite map_length; exact Hnl))).
  rewrite firstn_map, Rsum_map_scal, map_id. ring.
Qed.

(** ** adding and removing a frequency offset *)
Lemma offset_comp sig fo fs os : os <> 0 -> fs <> 0 ->
  exists out, comp_freq_offset (add_carrier_offset sig fo fs) (repeat (fo * os / fs) (length sig)) os = Ok out /\
    rotated_by (fun _ _ => - (2 * PI * fo / fs)) sig out.
Proof.
  intros Ho Hf. destruct (carrier_rot sig fo fs) as [Hl Hr].
  destruct (comp_freq_rot (add_carrier_offset sig fo fs) (repeat (fo * os / fs) (length sig)) os) as (out & E & Hlo & Hro).
  { rewrite Hl, repeat_length. lia. }
  exists out. split; [exact E|]. split; [congruence|].
  intros k row Hk. destruct (Hr k row Hk) as (r1 & H1 & Hl1 & Hn1). destruct (Hro k r1 H1) as (r2 & H2 & Hl2 & Hn2).
  exists r2. split; [exact H2|]. split; [congruence|]. intros n s Hs. rewrite (Hn2 n _ (Hn1 n s Hs)). f_equal.
  assert (Hk' : nth k (repeat (fo * os / fs) (length sig)) 0 = fo * os / fs).
  { apply nth_error_nth. apply nth_error_repeat_lt. eapply nth_error_Some_lt; exact Hk. }
  rewrite Hk', plus_INR. cbn [INR].
  assert (Hm : forall a b c : C, ((a * b) * c)%C = (a * (b * c))%C) by (intros; ring).
  rewrite Hm, <- Cexpi_add. repeat f_equal. field. split; assumption.
Qed.

(** ** the blind phase search *)
Lemma test_angles_spec M : [test_angles M] = bps_angles M.
Proof.
  unfold bps_angles, test_angles. f_equal. apply map_ext_in. intros k Hk. apply in_seq in Hk. unfold bps_angle.
  assert (INR M <> 0) by (apply not_0_INR; lia). field. assumption.
Qed.
Lemma bps_angles_for M L : angles_for (bps_angles M) L M.
Proof.
  left. unfold bps_angles. split; [reflexivity|]. constructor; [|constructor]. rewrite map_length, seq_length. reflexivity.
Qed.
Lemma bps_test_angle M t k : (k < M)%nat -> test_angle (bps_angles M) t k = bps_angle M k.
Proof.
  intros H. unfold test_angle, bps_angles, cell. cbn [length Nat.eqb nth].
  apply nth_error_nth. rewrite nth_error_map_seq by exact H. f_equal.
Qed.

Lemma bps_phase_ok fct M symbols N row idx (pick : nat -> nat -> Prop) : (1 <= M)%nat -> (1 <= N)%nat ->
  fct row (bps_angles M) symbols N = Ok idx -> length idx = length row ->
  (forall m, (m < length row)%nat -> ~ interior (length row) N m -> nth_error idx m = Some 0%nat) ->
  (forall m, interior (length row) N m -> exists k, nth_error idx m = Some k /\ (k < M)%nat /\ pick m k) ->
  exists ph, bps_phase fct M symbols N row = Ok ph /\ bps_trace M (length row) N pick ph.
Proof.
  intros HM HN Hf Hl Hedge Hint. pose proof PI_RGT_0 as Hpi. set (L := length row) in *.
  unfold bps_phase. rewrite test_angles_spec, Hf. cbn [bind].
  assert (Hall : forall k, In k idx -> (k < M)%nat).
  { intros k Hk. apply In_nth_error in Hk as [m Hm]. pose proof (nth_error_Some_lt _ _ _ Hm) as Hlt.
    destruct (le_lt_dec N m) as [H1|H1]; [destruct (lt_dec (m + N) L) as [H2|H2]|].
    - destruct (Hint m (conj H1 H2)) as (k' & Hk & Hlk & _). congruence.
    - rewrite Hedge in Hm; [injection Hm as <-; lia|lia|intros [_ H]; lia].
    - rewrite Hedge in Hm; [injection Hm as <-; lia|lia|intros [H _]; lia]. }
  assert (Hsel : select_angles (bps_angles M) idx = Ok (map (bps_angle M) idx)).
  { unfold select_angles, bps_angles. cbn [length Nat.ltb Nat.leb getn nth_error bind]. apply mapM_ok. intros k Hk.
    unfold getn. cbn [nth_error bind]. rewrite nth_error_map_seq by (apply Hall; exact Hk). reflexivity. }
  rewrite Hsel. cbn [bind].
  assert (Hedge' : forall m, (m < L)%nat -> ~ interior L N m -> nth_error (map (bps_angle M) idx) m = Some (bps_angle M 0)).
  { intros m H1 H2. rewrite nth_error_map, (Hedge m H1 H2). reflexivity. }
  destruct (le_lt_dec L (2 * N)) as [Hs|Hs].
  - assert (Hmid : pyslice (Z.of_nat N) (- Z.of_nat N) (map (bps_angle M) idx) = []).
    { unfold pyslice. rewrite map_length. cbv zeta. replace (length idx) with L by lia.
      match goal with |- firstn ?n _ = [] => assert (Hn : n = 0%nat); [|rewrite Hn; reflexivity] end.
      unfold clipz. destruct (Z.ltb_spec (Z.of_nat N) 0), (Z.ltb_spec (- Z.of_nat N) 0); lia. }
    rewrite Hmid. cbn [map unwrap]. rewrite slice_assign_none by (rewrite map_length; lia).
    eexists. split; [reflexivity|]. split; [rewrite map_length; exact Hl|]. split; [exact Hedge'|]. split.
    + intros m [H1 H2]. lia.
    + intros m p q [H1 H2]. lia.
  - assert (Hmid : pyslice (Z.of_nat N) (- Z.of_nat N) (map (bps_angle M) idx) = map (bps_angle M) (firstn (L - 2 * N) (skipn N idx))).
    { unfold pyslice. rewrite map_length. cbv zeta. replace (length idx) with L by lia.
      rewrite skipn_map, firstn_map. f_equal. f_equal; [|f_equal].
      - unfold clipz. destruct (Z.ltb_spec (Z.of_nat N) 0), (Z.ltb_spec (- Z.of_nat N) 0); lia.
      - unfold clipz. destruct (Z.ltb_spec (Z.of_nat N) 0); lia. }
    rewrite Hmid. set (mid := firstn (L - 2 * N) (skipn N idx)).
    assert (Hml : length mid = (L - 2 * N)%nat) by (unfold mid; rewrite firstn_length, skipn_length; lia).
    set (v := map (fun x => x / 4) (unwrap (map (fun x => x * 4) (map (bps_angle M) mid)))).
    assert (Hvl : length v = (L - 2 * N)%nat) by (unfold v; rewrite map_length, unwrap_length, !map_length; exact Hml).
    rewrite slice_assign_mid; [|rewrite map_length; lia|exact HN|rewrite map_length; lia].
    eexists. split; [reflexivity|].
    set (ph := firstn N (map (bps_angle M) idx) ++ v ++ skipn (length (map (bps_angle M) idx) - N) (map (bps_angle M) idx)).
    assert (Hphl : length ph = L).
    { unfold ph. rewrite !app_length, firstn_length, skipn_length, map_length. lia. }
    assert (Hin : forall m, interior L N m -> nth_error ph m = nth_error v (m - N)).
    { intros m [H1 H2]. unfold ph.
      assert (Hfl : length (firstn N (map (bps_angle M) idx)) = N) by (rewrite firstn_length, map_length; lia).
      rewrite nth_error_app2 by lia. rewrite Hfl. apply nth_error_app1. lia. }
    destruct (unwrap_ok (map (fun x => x * 4) (map (bps_angle M) mid))) as (U1 & U2 & U3).
    split; [exact Hphl|]. split; [|split].
    + intros m H1 H2. destruct (lt_dec m N) as [H3|H3].
      * unfold ph. rewrite nth_error_app1 by (rewrite firstn_length, map_length; lia).
        rewrite nth_error_firstn_lt by exact H3. apply Hedge'; assumption.
      * assert (H4 : (L - N <= m)%nat). { destruct (le_lt_dec (L - N) m); [assumption|]. exfalso. apply H2. split; lia. }
        unfold ph. rewrite app_assoc, nth_error_app2 by (rewrite app_length, firstn_length, map_length; lia).
        rewrite app_length, firstn_length, nth_error_skipn', map_length, Hvl.
        replace (length idx - N + (m - (Nat.min N (length idx) + (L - 2 * N))))%nat with m by lia.
        apply Hedge'; assumption.
    + intros m Hm. destruct (Hint m Hm) as (k & Hk & Hlt & Hp). destruct Hm as [H1 H2].
      rewrite (Hin m (conj H1 H2)).
      destruct (nth_error_lt_Some (unwrap (map (fun x => x * 4) (map (bps_angle M) mid))) (m - N)) as [u Hu].
      { rewrite unwrap_length, !map_length. lia. }
      exists k, (u / 4). split; [exact Hp|]. 
      assert (Hx : nth_error (map (fun x => x * 4) (map (bps_angle M) mid)) (m - N) = Some (bps_angle M k * 4)).
      { rewrite !nth_error_map. unfold mid. rewrite nth_error_firstn_lt by lia. rewrite nth_error_skipn'.
        replace (N + (m - N))%nat with m by lia. rewrite Hk. reflexivity. }
      split; [unfold v; rewrite nth_error_map, Hu; reflexivity|]. split.
      * pose proof (Forall2_nth _ _ _ U1 _ _ _ Hx Hu) as Ht. cbv beta in Ht.
        replace (4 * (u / 4 - bps_angle M k)) with (u - bps_angle M k * 4) by field. exact Ht.
      * intros ->. replace (N - N)%nat with 0%nat in * by lia. rewrite Hu, Hx in U2. injection U2 as ->. field.
    + intros m p q Hm Hm' Hp Hq. rewrite (Hin _ Hm) in Hp. rewrite (Hin _ Hm') in Hq. destruct Hm as [H1 H2].
      replace (S m - N)%nat with (S (m - N))%nat in Hq by lia. unfold v in Hp, Hq. rewrite nth_error_map in Hp, Hq.
      destruct (nth_error (unwrap _) (m - N)) as [a|] eqn:Ea; [|discriminate].
      destruct (nth_error (unwrap _) (S (m - N))) as [b|] eqn:Eb; [|discriminate].
      cbn [option_map] in Hp, Hq. injection Hp as <-. injection Hq as <-.
      pose proof (U3 _ _ _ Ea Eb) as H. replace (b / 4 - a / 4) with ((b - a) * / 4) by field.
      rewrite Rabs_mult, (Rabs_right (/ 4)) by lra. lra.
Qed.

Lemma core_bps_gen fct method E M symbols N (pick : nat -> nat -> nat -> Prop) : (1 <= M)%nat -> (1 <= N)%nat ->
  bps_fct method = Ok fct ->
  (forall k row, nth_error E k = Some row -> exists idx, fct row (bps_angles M) symbols N = Ok idx /\ length idx = length row /\
    (forall m, (m < length row)%nat -> ~ interior (length row) N m -> nth_error idx m = Some 0%nat) /\
    (forall m, interior (length row) N m -> exists i, nth_error idx m = Some i /\ (i < M)%nat /\ pick k m i)) ->
  exists out ph, core_bps E M symbols N method = Ok (out, ph) /\
    (forall k row, nth_error E k = Some row -> exists pr, nth_error ph k = Some pr /\ bps_trace M (length row) N (pick k) pr) /\
    rotated_by (fun k n => cell 0 ph k n) E out.
Proof.
  intros HM HN Hm Hrow.
  assert (Hp : exists ph, mapM (bps_phase fct M symbols N) E = Ok ph /\
     (forall k row, nth_error E k = Some row -> exists pr, nth_error ph k = Some pr /\ bps_trace M (length row) N (pick k) pr)).
  { clear Hm. revert pick Hrow. induction E as [|row E IH]; intros pick Hrow.
    - exists []. split; [reflexivity|]. intros [|k] row H; discriminate.
    - destruct (Hrow 0%nat row eq_refl) as (idx & H1 & H2 & H3 & H4).
      destruct (bps_phase_ok fct M symbols N row idx (pick 0%nat) HM HN H1 H2 H3 H4) as (p0 & Hp0 & Ht0).
      destruct (IH (fun k => pick (S k)) (fun k r Hk => Hrow (S k) r Hk)) as (ph & Hph & Htr).
      exists (p0 :: ph). cbn [mapM]. rewrite Hp0. cbn [bind]. rewrite Hph. split; [reflexivity|].
      intros [|k] r Hk; cbn [nth_error] in *.
      + injection Hk as <-. exists p0. split; [reflexivity|exact Ht0].
      + apply Htr. exact Hk. }
  destruct Hp as (ph & Hph & Htr).
  destruct (rotate_rows_ok E ph) as [out Hout].
  { apply Forall2_from_nth; [symmetry; eapply mapM_length; exact Hph|]. intros k row pr Hk Hpr.
    destruct (Htr k row Hk) as (pr' & Hpr' & Hl & _). rewrite Hpr in Hpr'. injection Hpr' as <-. congruence. }
  exists out, ph. unfold core_bps. rewrite Hm. cbn [bind]. rewrite Hph. cbn [bind]. rewrite Hout. split; [reflexivity|].
  split; [exact Htr|]. apply rotate_rows_spec in Hout. tauto.
Qed.

Lemma bps_py E M symbols N c : (1 <= M)%nat -> (1 <= N)%nat ->
  (forall k row, nth_error E k = Some row -> decision_costs row (bps_angles M) M symbols (c k)) ->
  exists out ph, core_bps E M symbols N "py" = Ok (out, ph) /\
    (forall k row, nth_error E k = Some row -> exists pr, nth_error ph k = Some pr /\
       bps_trace M (length row) N (fun m i => first_min (window_cost (c k) N m) M i) pr) /\
    rotated_by (fun k n => cell 0 ph k n) E out.
Proof.
  intros HM HN Hc. apply (core_bps_gen bps_idx_py "py" E M symbols N (fun k m i => first_min (window_cost (c k) N m) M i)); [exact HM|exact HN|reflexivity|].
  intros k row Hk. destruct (python_index row (bps_angles M) M symbols N (c k) (bps_angles_for _ _) (Hc k row Hk) HM HN) as (idx & H1 & H2 & H3 & H4).
  exists idx. split; [exact H1|]. split; [exact H2|]. split; [exact H3|]. intros m Hm.
  destruct (H4 m Hm) as (i & Hi & Hf). exists i. split; [exact Hi|]. split; [exact (proj1 Hf)|exact Hf].
Qed.
Lemma bps_pyt E M symbols N c : (1 <= M)%nat -> (1 <= N)%nat ->
  (forall k row, nth_error E k = Some row -> decision_costs row (bps_angles M) M symbols (c k)) ->
  exists out ph, core_bps E M symbols N "pyt" = Ok (out, ph) /\
    (forall k row, nth_error E k = Some row -> exists pr, nth_error ph k = Some pr /\
       bps_trace M (length row) N (fun m i => chosen (window_cost (capped (c k)) N m) M 1000 0 i) pr) /\
    rotated_by (fun k n => cell 0 ph k n) E out.
Proof.
  intros HM HN Hc. apply (core_bps_gen bps_idx_pyt "pyt" E M symbols N (fun k m i => chosen (window_cost (capped (c k)) N m) M 1000 0 i)); [exact HM|exact HN|reflexivity|].
  intros k row Hk. destruct (compiled_index row (bps_angles M) M symbols N (c k) (bps_angles_for _ _) (Hc k row Hk)) as (idx & H1 & H2 & H3 & H4).
  exists idx. split; [exact H1|]. split; [exact H2|]. split; [exact H3|]. intros m Hm.
  destruct (H4 m Hm) as (i & Hi & Hf). exists i. split; [exact Hi|]. split; [|exact Hf].
  destruct Hf as [[_ ->]|[Hf _]]; [lia|exact (proj1 Hf)].
Qed.

(** a nearest member of the alphabet exists *)
Lemma least_dist_exists al x : al <> [] -> exists d, least_dist al x d.
Proof.
  induction al as [|a al IH]; intros H; [congruence|]. destruct al as [|b al].
  - exists (Cnorm2 (x - a)%C). split; [exists a; split; [left; reflexivity|reflexivity]|].
    intros s [<-|[]]. lra.
  - destruct (IH ltac:(discriminate)) as (d & (s & Hs & Hd) & Hmin).
    destruct (Rle_dec (Cnorm2 (x - a)%C) d) as [Hle|Hgt].
    + exists (Cnorm2 (x - a)%C). split; [exists a; split; [left; reflexivity|reflexivity]|].
      intros t [<-|Ht]; [lra|]. pose proof (Hmin t Ht). lra.
    + exists d. split; [exists s; split; [right; exact Hs|exact Hd]|]. intros t [<-|Ht]; [lra|apply Hmin; exact Ht].
Qed.
Lemma least_dist_fun al x : al <> [] -> least_dist al x (match row_min (map (fun s => Cabs (x - s)%C ^ 2) al) with Ok d => d | Err _ => 0 end).
Proof. intros H. destruct (least_dist_exists al x H) as [d Hd]. rewrite (row_min_least al x d Hd). exact Hd. Qed.
Lemma costs_exist E ta M symbols : symbols <> [] -> exists c, decision_costs E ta M symbols c.
Proof. intros H. eexists (fun t k => _). intros t k Ht Hk. apply (least_dist_fun symbols _ H). Qed.
Lemma costs_exist_modes (E : list (list C)) ta M symbols : symbols <> [] ->
  exists c : nat -> nat -> nat -> R, forall k row, nth_error E k = Some row -> decision_costs row ta M symbols (c k).
Proof.
  intros H. induction E as [|row E IH].
  - exists (fun _ _ _ => 0). intros [|k] r Hk; discriminate.
  - destruct IH as [c Hc]. destruct (costs_exist row ta M symbols H) as [c0 H0].
    exists (fun k => match k with O => c0 | S k' => c k' end). intros [|k] r Hk; cbn [nth_error] in Hk.
    + injection Hk as <-. exact H0.
    + apply Hc. exact Hk.
Qed.

Lemma least_dist_nonneg al x d : least_dist al x d -> 0 <= d.
Proof. intros [(s & _ & ->) _]. apply Cnorm2_nonneg. Qed.
Lemma quarter_turns al s (z : Z) : quarter_symmetric al -> In s al -> In (s * Cexpi (IZR z * (PI / 2)))%C al.
Proof.
  intros Hq Hs.
  assert (Hn : forall n : nat, In (s * Cexpi (INR n * (PI / 2)))%C al).
  { induction n as [|n IH].
    - cbn [INR]. rewrite Rmult_0_l, Cexpi_0. replace (s * C1)%C with s by cring. exact Hs.
    - rewrite S_INR. replace ((INR n + 1) * (PI / 2)) with (INR n * (PI / 2) + PI / 2) by ring. rewrite Cexpi_add.
      assert (Hh : Cexpi (PI / 2) = Ci) by (unfold Cexpi; rewrite cos_PI2, sin_PI2; reflexivity). rewrite Hh.
      replace (s * (Cexpi (INR n * (PI / 2)) * Ci))%C with ((s * Cexpi (INR n * (PI / 2))) * Ci)%C by ring.
      apply Hq. exact IH. }
  specialize (Hn (Z.to_nat (z mod 4))). pose proof (Z.mod_pos_bound z 4 ltac:(lia)) as Hb.
  rewrite INR_IZR_INZ, Z2Nat.id in Hn by lia.
  rewrite (Cexpi_turns (IZR z * (PI / 2)) (IZR (z mod 4) * (PI / 2))); [exact Hn|].
  exists (z / 4)%Z. pose proof (Z.div_mod z 4 ltac:(lia)) as He. rewrite He at 1. rewrite plus_IZR, mult_IZR. field.
Qed.

(** a picked test phase with zero cost puts the sample on the alphabet *)
Lemma zero_pick row M symbols N c m k0 k : (1 <= N)%nat -> interior (length row) N m ->
  decision_costs row (bps_angles M) M symbols c -> (k0 < M)%nat ->
  (forall t, (t < length row)%nat -> c t k0 = 0) -> first_min (window_cost (capped c) N m) M k \/ first_min (window_cost c N m) M k ->
  In (nth m row C0 * Cexpi (bps_angle M k))%C symbols.
Proof.
  intros HN [H1 H2] Hc Hk0 Hz Hfm.
  assert (Hw0 : window_cost c N m k0 = 0 /\ window_cost (capped c) N m k0 = 0).
  { unfold window_cost. split; apply rsum_zero; intros j Hj; unfold capped; rewrite Hz by lia; [reflexivity|].
    apply Rmin_left. lra. }
  assert (Hpos : forall j, (j < M)%nat -> (forall t, (t < length row)%nat -> 0 <= c t j)).
  { intros j Hj t Ht. eapply least_dist_nonneg. apply Hc; assumption. }
  assert (Hkz : (k < M)%nat /\ c m k = 0).
  { destruct Hfm as [(K1 & K2 & _)|(K1 & K2 & _)]; (split; [exact K1|]); pose proof (K2 k0 Hk0) as Hle.
    - assert (Hnn : forall j, (j < 2 * N)%nat -> 0 <= capped c (m - N + 1 + j)%nat k).
      { intros j Hj. unfold capped. apply Rmin_glb; [apply Hpos; [exact K1|lia]|lra]. }
      pose proof (rsum_nonneg _ _ Hnn) as Hge. unfold window_cost in *.
      pose proof (rsum_zero_inv _ _ Hnn ltac:(lra) (N - 1)%nat ltac:(lia)) as H0. cbv beta in H0.
      replace (m - N + 1 + (N - 1))%nat with m in H0 by lia.
      unfold capped in H0. pose proof (Hpos k K1 m ltac:(lia)). unfold Rmin in H0. destruct (Rle_dec (c m k) 100); lra.
    - assert (Hnn : forall j, (j < 2 * N)%nat -> 0 <= c (m - N + 1 + j)%nat k) by (intros j Hj; apply Hpos; [exact K1|lia]).
      pose proof (rsum_nonneg _ _ Hnn) as Hge. unfold window_cost in *.
      pose proof (rsum_zero_inv _ _ Hnn ltac:(lra) (N - 1)%nat ltac:(lia)) as H0. cbv beta in H0.
      replace (m - N + 1 + (N - 1))%nat with m in H0 by lia. exact H0. }
  destruct Hkz as [HkM Hkz].
  destruct (Hc m k ltac:(lia) HkM) as [(s & Hs & Hd) _]. rewrite Hkz in Hd. symmetry in Hd. apply Cnorm2_zero in Hd.
  rewrite bps_test_angle in Hd by exact HkM.
  assert (He : (nth m row C0 * Cexpi (bps_angle M k))%C = s).
  { revert Hd. generalize (nth m row C0 * Cexpi (bps_angle M k))%C. intros z Hd. replace z with ((z - s) + s)%C by ring. rewrite Hd. ring. }
  rewrite He. exact Hs.
Qed.

(** noise-free: the alphabet points rotated by one of the test phases come back on the alphabet *)
Lemma bps_recovers tx M symbols N k0 method : (1 <= N)%nat -> (k0 < M)%nat -> quarter_symmetric symbols ->
  (forall row s, In row tx -> In s row -> In s symbols) -> symbols <> [] -> method = "py"%string \/ method = "pyt"%string ->
  exists out ph, core_bps (map (map (fun s => s * Cexpi (- bps_angle M k0)))%C tx) M symbols N method = Ok (out, ph) /\
    length out = length tx /\
    forall k row, nth_error tx k = Some row -> exists row', nth_error out k = Some row' /\ length row' = length row /\
      forall m s, interior (length row) N m -> nth_error row' m = Some s -> In s symbols.
Proof.
  intros HN Hk0 Hq Htx Hne Hm. set (E := map (map (fun s => s * Cexpi (- bps_angle M k0)))%C tx).
  destruct (costs_exist_modes E (bps_angles M) M symbols Hne) as [c Hc].
  assert (Hz : forall k row, nth_error E k = Some row -> forall t, (t < length row)%nat -> c k t k0 = 0).
  { intros k row Hk t Ht. destruct (Hc k row Hk t k0 Ht Hk0) as [(s & Hs & Hd) Hmin].
    rewrite bps_test_angle in Hd, Hmin by exact Hk0.
    unfold E in Hk. rewrite nth_error_map in Hk. destruct (nth_error tx k) as [r0|] eqn:Er; [|discriminate].
    cbn [option_map] in Hk. injection Hk as <-. rewrite map_length in Ht.
    destruct (nth_error_lt_Some r0 t Ht) as [s0 Hs0].
    assert (Hin : In s0 symbols) by (apply (Htx r0 s0); eapply nth_error_In; eassumption).
    assert (Hn : nth t (map (fun s => s * Cexpi (- bps_angle M k0))%C r0) C0 = (s0 * Cexpi (- bps_angle M k0))%C).
    { apply nth_error_nth. rewrite nth_error_map, Hs0. reflexivity. }
    pose proof (Hmin s0 Hin) as Hle. rewrite Hn in Hle.
    assert (He : (s0 * Cexpi (- bps_angle M k0) * Cexpi (bps_angle M k0) - s0)%C = C0).
    { replace (s0 * Cexpi (- bps_angle M k0) * Cexpi (bps_angle M k0))%C with (s0 * (Cexpi (- bps_angle M k0) * Cexpi (bps_angle M k0)))%C by ring.
      rewrite <- Cexpi_add, Rplus_opp_l, Cexpi_0. cring. }
    rewrite He, Cnorm2_0 in Hle. pose proof (Cnorm2_nonneg (nth t (map (fun s => s * Cexpi (- bps_angle M k0))%C r0) C0 * Cexpi (bps_angle M k0) - s)%C). lra. }
  assert (Hgen : exists out ph, core_bps E M symbols N method = Ok (out, ph) /\
    (forall k row, nth_error E k = Some row -> exists pr, nth_error ph k = Some pr /\
       bps_trace M (length row) N (fun m i => first_min (window_cost (capped (c k)) N m) M i \/ first_min (window_cost (c k) N m) M i) pr) /\
    rotated_by (fun k n => cell 0 ph k n) E out).
  { destruct Hm as [-> | ->].
    - destruct (bps_py E M symbols N c ltac:(lia) HN Hc) as (out & ph & H1 & H2 & H3). exists out, ph.
      split; [exact H1|]. split; [|exact H3]. intros k row Hk. destruct (H2 k row Hk) as (pr & Hpr & T1 & T2 & T3 & T4).
      exists pr. split; [exact Hpr|]. split; [exact T1|]. split; [exact T2|]. split; [|exact T4].
      intros m Hm. destruct (T3 m Hm) as (i & p & Hi & Hp). exists i, p. split; [right; exact Hi|exact Hp].
    - destruct (bps_pyt E M symbols N c ltac:(lia) HN Hc) as (out & ph & H1 & H2 & H3). exists out, ph.
      split; [exact H1|]. split; [|exact H3]. intros k row Hk. destruct (H2 k row Hk) as (pr & Hpr & T1 & T2 & T3 & T4).
      exists pr. split; [exact Hpr|]. split; [exact T1|]. split; [exact T2|]. split; [|exact T4].
      intros m Hm. destruct (T3 m Hm) as (i & p & Hi & Hp). exists i, p. split; [|exact Hp]. left.
      destruct Hi as [[Hlim _]|[Hi _]]; [|exact Hi]. exfalso. specialize (Hlim k0 Hk0).
      assert (Hw : window_cost (capped (c k)) N m k0 = 0).
      { apply rsum_zero. intros j Hj. destruct Hm as [Hm1 Hm2]. unfold capped. rewrite (Hz k row Hk) by lia. apply Rmin_left. lra. }
      lra. }
  destruct Hgen as (out & ph & H1 & H2 & Hl & H3). exists out, ph. split; [exact H1|].
  split; [rewrite Hl; unfold E; apply map_length|]. intros k row Hk.
  assert (HkE : nth_error E k = Some (map (fun s => s * Cexpi (- bps_angle M k0))%C row)) by (unfold E; rewrite nth_error_map, Hk; reflexivity).
  destruct (H3 k _ HkE) as (row' & Hr' & Hlen & Hn). exists row'. split; [exact Hr'|]. rewrite map_length in Hlen. split; [exact Hlen|].
  clear Hm. intros m s Hm Hs. destruct (H2 k _ HkE) as (pr & Hpr & _ & _ & T3 & _). rewrite map_length in T3.
  destruct (T3 m Hm) as (i & p & Hi & Hp & Ht & _).
  assert (Hml : (m < length (map (fun s => s * Cexpi (- bps_angle M k0))%C row))%nat) by (rewrite map_length; destruct Hm; lia).
  destruct (nth_error_lt_Some _ _ Hml) as [e He]. rewrite (Hn m e He) in Hs.
  assert (Hc' : cell 0 ph k m = p) by (unfold cell; rewrite (nth_error_nth ph k [] Hpr); apply nth_error_nth; exact Hp).
  rewrite Hc' in Hs. injection Hs as <-.
  assert (Hzp : In (e * Cexpi (bps_angle M i))%C symbols).
  { rewrite <- (nth_error_nth _ m C0 He).
    apply (zero_pick _ M symbols N (c k) m k0 i HN); [rewrite map_length; exact Hm|apply Hc; exact HkE|exact Hk0|apply Hz; exact HkE|exact Hi]. }
  destruct Ht as [z Hzt]. replace p with (bps_angle M i + IZR z * (PI / 2)) by lra.
  rewrite Cexpi_add. replace (e * (Cexpi (bps_angle M i) * Cexpi (IZR z * (PI / 2))))%C with ((e * Cexpi (bps_angle M i)) * Cexpi (IZR z * (PI / 2)))%C by ring.
  apply quarter_turns; assumption.
Qed.
