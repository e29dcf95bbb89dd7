(** Phase recovery of whole signals: combinations, moduli and counterexamples. *)
From Coq Require Import String List ZArith Bool Reals Arith Lia Lra ZifyBool ZifyNat.
From Verif Require Import Common.Py Common.ListX Common.Cplx Common.SumX Common.Angle Model.Windows Model.Quality
  Model.Sync Model.Pilots Model.Phase Spec.Seq Spec.Equal Spec.Frames Spec.PhaseSpec
  Proofs.PilotP Proofs.PilotQ Proofs.PhaseP Proofs.PhaseQ Proofs.PhaseV Proofs.PhaseR Proofs.PhaseS.
Import ListNotations.
Local Open Scope R_scope.

Section Whole.
Variables (t s : psig C) (pil : list bool) (m r : nat) (avg ratio : nat) (mb : option nat) (n : nat) (use_seq : bool) (sel : list nat)
  (ph : nat -> nat -> R).
Hypothesis (Hsig : pilot_signal t pil m r).
Hypothesis (Hlay : same_layout t s).
Hypothesis (Havg : (1 < avg)%nat).
Hypothesis (Hratio : (1 <= ratio)%nat).
Hypothesis (Hn : (n <= m)%nat).
Hypothesis (Hsel : every_nth ratio (limited mb (skipn (unused t use_seq) (nonzero pil))) sel).
Hypothesis (Hstep : in_step t pil m r use_seq ratio mb n).
Hypothesis (HA : (odd_up avg <= n * length sel)%nat).
Hypothesis (Hrot : rotated_by ph (p_rows t) (p_rows s)).
Let h := ((odd_up avg - 1) / 2)%nat.

Lemma whole_general : (forall k q, (k < length (p_rows t))%nat -> (S q < n * length sel)%nat ->
    Rabs (ph k (pilot_at sel (p_frame_len t) (S q)) - ph k (pilot_at sel (p_frame_len t) q)) < PI) ->
  exists out tr, pilot_cpe s avg ratio mb n use_seq = Ok (out, tr) /\ length tr = length (p_rows t) /\
  rotated_by (fun k i => ph k i - cell 0 tr k i) (map (firstn (n * p_frame_len t)) (p_rows t)) out /\
  forall k, (k < length (p_rows t))%nat -> exists c, turns c /\ forall i, (i < n * p_frame_len t)%nat ->
    interpolates (pilot_at sel (p_frame_len t)) (fun q => mean_at (fun j => ph k (pilot_at sel (p_frame_len t) j)) (q - h) (odd_up avg) + c)
      h (n * length sel - 1 - h) i (cell 0 tr k i).
Proof.
  pose proof (in_step_match _ _ _ _ _ _ _ _ _ Hsig Hratio Hn Hsel Hstep) as Hm.
  destruct Hsig as ((dat & M1 & M2 & M3 & M4 & M5 & M6 & M7 & M8) & S2 & S3 & S4 & S5 & S6).
  eapply obj_general; try eassumption. apply Nat.mul_le_mono_r. exact Hn.
Qed.
Lemma whole_const (theta : nat -> R) : (forall k i, ph k i = theta k) ->
  exists tr, pilot_cpe s avg ratio mb n use_seq = Ok (map (firstn (n * p_frame_len t)) (p_rows t), tr).
Proof.
  pose proof (in_step_match _ _ _ _ _ _ _ _ _ Hsig Hratio Hn Hsel Hstep) as Hm.
  destruct Hsig as ((dat & M1 & M2 & M3 & M4 & M5 & M6 & M7 & M8) & S2 & S3 & S4 & S5 & S6).
  eapply obj_const; try eassumption. apply Nat.mul_le_mono_r. exact Hn.
Qed.
Lemma whole_line (a b : nat -> R) p0 d : (forall k i, ph k i = a k + b k * INR i) ->
  (forall q, (q < n * length sel)%nat -> pilot_at sel (p_frame_len t) q = (p0 + d * q)%nat) ->
  (forall k, (k < length (p_rows t))%nat -> Rabs (b k * INR d) < PI) ->
  exists out tr, pilot_cpe s avg ratio mb n use_seq = Ok (out, tr) /\ length out = length (p_rows t) /\
    forall k row, nth_error (p_rows t) k = Some row -> exists row', nth_error out k = Some row' /\ length row' = (n * p_frame_len t)%nat /\
      forall i, (pilot_at sel (p_frame_len t) h <= i <= pilot_at sel (p_frame_len t) (n * length sel - 1 - h))%nat -> (i < n * p_frame_len t)%nat ->
        nth_error row' i = nth_error row i.
Proof.
  pose proof (in_step_match _ _ _ _ _ _ _ _ _ Hsig Hratio Hn Hsel Hstep) as Hm.
  destruct Hsig as ((dat & M1 & M2 & M3 & M4 & M5 & M6 & M7 & M8) & S2 & S3 & S4 & S5 & S6).
  eapply obj_line; try eassumption. apply Nat.mul_le_mono_r. exact Hn.
Qed.
End Whole.

(** ** moduli *)
Lemma Forall2_firstn {A B} (P : A -> B -> Prop) n : forall a b, Forall2 P a b -> Forall2 P (firstn n a) (firstn n b).
Proof. induction n as [|n IH]; intros a b H; [constructor|]. destruct H; cbn [firstn]; constructor; auto. Qed.
Lemma rows_firstn {A B} (P : A -> B -> Prop) a b l : forall o, Forall2 (Forall2 P) (map (firstn a) l) o ->
  Forall2 (Forall2 P) (map (firstn (Nat.min b a)) l) (map (firstn b) o).
Proof.
  induction l as [|x l IH]; intros o H; cbn [map] in *; inversion H; subst; constructor; [|apply IH; assumption].
  rewrite <- firstn_firstn. apply Forall2_firstn. assumption.
Qed.
Lemma cpe_modulus sig pilots pidx fl avg ratio mb n out tr :
  pilot_based_cpe_new sig pilots pidx fl avg ratio mb n = Ok (out, tr) ->
  same_modulus (map (firstn (Nat.min (n * fl) (row_len sig))) sig) out.
Proof.
  unfold pilot_based_cpe_new. destruct (negb _); [discriminate|]. destruct (ratio =? 0)%nat; [discriminate|]. cbv zeta.
  destruct (mapM _ sig) as [rec|]; [|discriminate]. cbn [bind]. destruct (negb _); [discriminate|]. destruct (negb _); [discriminate|].
  destruct (mapM _ _) as [trc|]; [|discriminate]. cbn [bind]. destruct (rotate_rows _ _) as [o|] eqn:Er; [|discriminate]. cbn [bind].
  intros H. injection H as <- _. apply rotate_rows_spec in Er as (_ & _ & Hr). apply rotated_same_modulus in Hr.
  unfold same_modulus in *. apply (rows_firstn _ _ (n * fl)) in Hr.
  replace (Nat.min (n * fl) (row_len sig)) with (Nat.min (n * fl) (Nat.min (fl * n) (row_len sig))) by lia. exact Hr.
Qed.
(** the number of samples is not kept *)
Lemma ones_shaped : well_shaped 1 (fun n => [repeat C1 n]).
Proof. intros n. split; [reflexivity|]. constructor; [apply repeat_length|constructor]. Qed.
Lemma C1_not_0 : C1 <> C0.
Proof. intros E. injection E. lra. Qed.
Lemma truncates : exists s out tr, pilot_new C0 (fun n => [repeat C1 n]) (fun n => [repeat C1 n]) 4 3 0 2 1 false true = Ok s /\
  pilot_cpe s 3 1 None 1 true = Ok (out, tr) /\ map (@length C) (p_rows s) = [8%nat] /\ map (@length C) out = [4%nat].
Proof.
  eexists. 
  assert (Hn : pilot_new C0 (fun n => [repeat C1 n]) (fun n => [repeat C1 n]) 4 3 0 2 1 false true =
    Ok (mk_psig [[C1; C1; C1; C1; C1; C1; C1; C1]] 1 4 3 [[C1; C1]] [[C1; C1; C1; C1; C1; C1]]
     (IMask [false; false; false; true]) (IMask [true; true; true; false]))) by reflexivity.
  set (s := mk_psig _ _ _ _ _ _ _ _) in Hn.
  destruct (pilot_new_signal C0 (fun n => [repeat C1 n]) (fun n => [repeat C1 n]) 4 3 0 2 1 false s ltac:(lia) ltac:(lia) (or_introl eq_refl) ltac:(lia) ltac:(lia)
    ones_shaped ones_shaped) as (pil & P1 & P2 & P3 & P4 & P5).
  { intros k row a [<-|[]] Ha. apply repeat_spec in Ha. subst a. apply C1_not_0. }
  { exact Hn. }
  assert (Hp : pil = [true; true; true; false]).
  { destruct P3 as ((dat & M1 & M2 & M3 & M4 & M5 & M6 & M7 & M8) & _). unfold s in M6. cbn [p_idx_pil] in M6. congruence. }
  destruct (whole_const s s pil 2 1 3 1 None 1 true [0; 1; 2]%nat (fun _ _ => 0) P3) with (theta := fun _ : nat => 0) as [tr Htr].
  - repeat split.
  - lia.
  - lia.
  - lia.
  - subst pil. split; [reflexivity|]. intros i. rewrite Nat.mul_1_r. reflexivity.
  - left. reflexivity.
  - cbn. lia.
  - split; [reflexivity|]. intros k row Hk. exists row. split; [exact Hk|]. split; [reflexivity|]. intros i x Hx. rewrite Hx, Cexpi_0. f_equal. cring.
  - reflexivity.
  - exists (map (firstn (1 * p_frame_len s)) (p_rows s)), tr. split; [exact Hn|]. split; [exact Htr|]. split; reflexivity.
Qed.

(** ** limits of the compiled search *)
Lemma least_one a x : least_dist [a] x (Cnorm2 (x - a)%C).
Proof. split; [exists a; split; [left|]; reflexivity|]. intros s [<-|[]]. lra. Qed.
Lemma compiled_capped : exists i1 i2, bps_idx_pyt (@repeat C (12, 0) 3) [[PI; 0]] [C1] 1 = Ok i1 /\ bps_idx_py (@repeat C (12, 0) 3) [[PI; 0]] [C1] 1 = Ok i2 /\
  interior 3 1 1 /\ nth_error i1 1 = Some 0%nat /\ nth_error i2 1 = Some 1%nat /\
  exists c, decision_costs (@repeat C (12, 0) 3) [[PI; 0]] 2 [C1] c /\ first_min (window_cost c 1 1) 2 1.
Proof.
  set (c := fun t k : nat => if (k =? 0)%nat then 169 else 121).
  assert (Ha : angles_for [[PI; 0]] (length (@repeat C (12, 0) 3)) 2).
  { left. split; [reflexivity|]. repeat constructor. }
  assert (Hc : decision_costs (@repeat C (12, 0) 3) [[PI; 0]] 2 [C1] c).
  { intros t k Ht Hk. assert (Hs : nth t (@repeat C (12, 0) 3) C0 = (12, 0)).
    { apply nth_error_nth. apply nth_error_repeat_lt. exact Ht. }
    rewrite Hs. unfold test_angle. cbn [length Nat.eqb].
    destruct k as [|[|k]]; [| |lia]; cbn [cell nth]; unfold c; cbn [Nat.eqb].
    - unfold cell. cbn [nth]. replace 169 with (Cnorm2 (((12, 0) : C) * Cexpi PI - C1)%C); [apply least_one|].
      unfold Cexpi. rewrite cos_PI, sin_PI. unfold Cnorm2. cbn. ring.
    - unfold cell. cbn [nth]. replace 121 with (Cnorm2 (((12, 0) : C) * Cexpi 0 - C1)%C); [apply least_one|].
      rewrite Cexpi_0. unfold Cnorm2. cbn. ring. }
  destruct (compiled_index _ _ _ _ 1 c Ha Hc) as (i1 & E1 & L1 & _ & I1).
  destruct (python_index _ _ _ _ 1 c Ha Hc ltac:(lia) ltac:(lia)) as (i2 & E2 & L2 & _ & I2).
  assert (Hi : interior 3 1 1) by (split; lia).
  assert (HW : forall k, (k < 2)%nat -> window_cost c 1 1 k = if (k =? 0)%nat then 338 else 242).
  { intros k Hk. unfold window_cost. cbn [Nat.mul Nat.add]. rewrite !rsum_S, rsum_0. unfold c. destruct (k =? 0)%nat; ring. }
  assert (HWc : forall k, (k < 2)%nat -> window_cost (capped c) 1 1 k = 200).
  { intros k Hk. unfold window_cost. cbn [Nat.mul Nat.add]. rewrite !rsum_S, rsum_0. unfold capped, c.
    destruct (k =? 0)%nat; rewrite Rmin_right by lra; ring. }
  exists i1, i2. split; [exact E1|]. split; [exact E2|]. split; [exact Hi|].
  destruct (I1 1%nat Hi) as (k1 & K1 & F1). destruct (I2 1%nat Hi) as (k2 & K2 & F2).
  assert (Hf : first_min (window_cost c 1 1) 2 1).
  { split; [lia|]. split; intros j Hj; rewrite !HW by lia; destruct j as [|[|j]]; cbn [Nat.eqb]; lra || lia. }
  split; [|split; [|exists c; split; [exact Hc|exact Hf]]].
  - rewrite K1. f_equal. destruct F1 as [[_ F1]|[(F1 & F3 & F4) _]]; [exact F1|].
    destruct k1 as [|k1]; [reflexivity|]. specialize (F4 0%nat ltac:(lia)). rewrite !HWc in F4 by lia. lra.
  - rewrite K2. f_equal. eapply first_min_unique; eassumption.
Qed.
Lemma no_window : bps_idx_pyt [C1; C1] [[0]] [C1] 0 = Ok [0; 0]%nat /\ bps_idx_py [C1; C1] [[0]] [C1] 0 = Err ValueError.
Proof.
  split.
  - destruct (costs_exist [C1; C1] [[0]] 1 [C1] ltac:(discriminate)) as [c Hc].
    destruct (compiled_index [C1; C1] [[0]] 1 [C1] 0 c) as (i & E & L & _ & I).
    + left. split; [reflexivity|]. repeat constructor.
    + exact Hc.
    + rewrite E. f_equal. destruct (I 0%nat ltac:(split; cbn; lia)) as (k0 & K0 & F0). destruct (I 1%nat ltac:(split; cbn; lia)) as (k1 & K1 & F1).
      assert (Hz : forall k, chosen (window_cost (capped c) 0 0) 1 1000 0 k \/ chosen (window_cost (capped c) 0 1) 1 1000 0 k -> k = 0%nat).
      { intros k [H|H]; destruct H as [[_ H]|[[H _] _]]; lia. }
      rewrite (Hz k0) in K0 by auto. rewrite (Hz k1) in K1 by auto.
      destruct i as [|a [|b [|d i]]]; try discriminate. cbn in K0, K1. injection K0 as ->. injection K1 as ->. reflexivity.
  - cbv -[Rplus Rmult Rminus Ropp Rmin Rmax cos sin PI sqrt pow Rle_dec Rlt_dec IZR]. reflexivity.
Qed.

(** a frame of four symbols 1, i, 1, -1 whose first three are pilots *)
Definition ex_frame : list C := [C1; Ci; C1; (- C1)%C].
Definition ex_sig (rows : list (list C)) : psig C :=
  mk_psig rows 1 4 3 [[(- C1)%C]] [[C1; Ci; C1]] (IMask [false; false; false; true]) (IMask [true; true; true; false]).
Lemma ex_pilot_signal : pilot_signal (ex_sig [ex_frame]) [true; true; true; false] 1 1.
Proof.
  split; [|split; [lia|split; [auto|split; [cbn; lia|split; [reflexivity|]]]]].
  - exists [false; false; false; true]. unfold mask_signal. cbn [ex_sig p_rows p_os p_frame_len p_idx_dat p_idx_pil].
    split; [discriminate|]. split; [repeat constructor|]. split; [reflexivity|]. split; [lia|]. repeat (split; [reflexivity|]). reflexivity.
  - constructor; [|constructor]. repeat constructor; intros E; injection E; lra.
Qed.
