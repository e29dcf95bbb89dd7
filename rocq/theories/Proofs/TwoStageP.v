(** Two-stage blind phase search *)
From Coq Require Import String List ZArith Bool Lia ZifyBool ZifyNat Reals Lra Psatz Arith.
From Verif Require Import Common.Py Common.ListX Common.Cplx Common.SumX Common.Angle Model.Sync Model.Phase Model.Estimate
  Spec.Seq Spec.Equal Spec.Frames Spec.PhaseSpec Spec.TwoStageS Proofs.DecisionP Proofs.PhaseP Proofs.PhaseQ.
Import ListNotations.
Open Scope list_scope.
Local Open Scope R_scope.

Lemma fine_step M B j : (1 <= M)%nat -> (j < B)%nat ->
  (- (INR B / 2) + INR j * (if (B =? 1)%nat then 0 else INR B / INR (B - 1))) / (INR B * INR M) * PI / 2 = fine_offset M B j.
Proof.
  intros HM Hj. unfold fine_offset. assert (0 < INR M) by (apply lt_0_INR; lia). assert (0 < INR B) by (apply lt_0_INR; lia).
  destruct (Nat.eqb_spec B 1) as [->|N]; [cbn [INR]; field; lra|]. assert (0 < INR (B - 1)) by (apply lt_0_INR; lia). field. lra.
Qed.
Lemma fine_angles_eq M B ph : (1 <= M)%nat -> fine_angles M B ph = map (fun p => map (fun j => p + fine_offset M B j) (seq 0 B)) ph.
Proof.
  intros HM. unfold fine_angles, fine_steps. apply map_ext. intros p. rewrite map_map. apply map_ext_in. intros j Hj. apply in_seq in Hj.
  f_equal. rewrite <- fine_step by (try assumption; lia). reflexivity.
Qed.
Definition picks (L N M : nat) (pick : nat -> nat -> Prop) (idx : list nat) : Prop :=
  length idx = L /\ (forall m, (m < L)%nat -> ~ interior L N m -> nth_error idx m = Some 0%nat) /\
  (forall m, interior L N m -> exists k, nth_error idx m = Some k /\ (k < M)%nat /\ pick m k).
Lemma interior_dec L N m : {interior L N m} + {~ interior L N m}.
Proof.
  unfold interior. destruct (le_lt_dec N m); [|right; lia]. destruct (lt_dec (m + N) L); [left; lia|right; lia].
Qed.
Lemma picks_below L N M pick idx m k : (1 <= M)%nat -> picks L N M pick idx -> nth_error idx m = Some k -> (k < M)%nat.
Proof.
  intros HM (Hl & He & Hi) Hm. pose proof (nth_error_Some_lt _ _ _ Hm) as Hlt. destruct (interior_dec L N m) as [H|H].
  - destruct (Hi m H) as (k' & Hk & Hlk & _). congruence.
  - rewrite He in Hm; [injection Hm as <-; lia|lia|exact H].
Qed.
Section Row.
Variables (fct : list C -> list (list R) -> list C -> nat -> result (list nat)) (M B N : nat) (symbols row : list C).
Variables (pick1 : nat -> nat -> Prop) (pick2 : (nat -> R) -> nat -> nat -> Prop).
Hypothesis (HM : (1 <= M)%nat).
Hypothesis (HB : (1 <= B)%nat).
Let L := length row.
Hypothesis (H1 : exists idx, fct row (bps_angles M) symbols N = Ok idx /\ picks L N M pick1 idx).
Hypothesis (H2 : forall th : nat -> R, exists idx, fct row (map (fun t => map (fun j => th t + fine_offset M B j) (seq 0 B)) (seq 0 L)) symbols N = Ok idx /\
   picks L N B (pick2 th) idx).
Lemma twostage_row : exists th ph, twostage_phase fct M symbols N B row = Ok ph /\ coarse_phases M L N pick1 th /\ two_stage_trace M B L N (pick2 th) th ph.
Proof.
  destruct H1 as (idx & E1 & P1). set (th := fun m => bps_angle M (nth m idx 0%nat)). destruct (H2 th) as (idx2 & E2 & P2).
  pose proof P1 as (L1 & A1 & B1). pose proof P2 as (L2 & A2 & B2). unfold twostage_phase. rewrite test_angles_spec, E1. cbn [bind].
  assert (Hsel : select_angles (bps_angles M) idx = Ok (map (bps_angle M) idx)).
  { unfold select_angles, bps_angles. cbn [length Nat.ltb Nat.leb getn nth_error bind]. apply mapM_ok. intros k Hk.
    unfold getn. cbn [nth_error bind]. apply In_nth_error in Hk as (m & Hm). rewrite nth_error_map_seq by (eapply picks_below; eassumption). reflexivity. }
  rewrite Hsel. cbn [bind]. rewrite fine_angles_eq by exact HM.
  assert (Hph : map (bps_angle M) idx = map th (seq 0 L)).
  { rewrite (list_as_map 0%nat idx) at 1. rewrite map_map, L1. reflexivity. }
  rewrite Hph, map_map, E2. cbn [bind]. set (f2 := fun m => th m + fine_offset M B (nth m idx2 0%nat)).
  assert (Hb : forall m, (m < L)%nat -> (nth m idx2 0 < B)%nat /\ nth_error idx2 m = Some (nth m idx2 0%nat)).
  { intros m Hm. assert (X : nth_error idx2 m = Some (nth m idx2 0%nat)) by (apply nth_error_nth'; lia). split; [|exact X]. eapply picks_below; eassumption. }
  assert (Hsel2 : select_angles (map (fun t => map (fun j => th t + fine_offset M B j) (seq 0 B)) (seq 0 L)) idx2 = Ok (map f2 (seq 0 L))).
  { unfold select_angles. rewrite map_length, seq_length. destruct (Nat.ltb_spec 1 L) as [Q|Q].
    - apply mapM_ok. intros m Hm. apply in_seq in Hm. unfold getn. rewrite nth_error_map_seq by lia. cbn [bind].
      destruct (Hb m ltac:(lia)) as (X & ->). cbn [bind]. rewrite nth_error_map_seq by exact X. reflexivity.
    - destruct (Nat.eq_dec L 0) as [Z|Z]; [destruct idx2; [rewrite Z; reflexivity|cbn in L2; lia]|].
      assert (Z1 : L = 1%nat) by lia. rewrite Z1 in *. destruct idx2 as [|k [|]]; try (cbn in L2; lia).
      cbn [seq map mapM]. unfold getn at 1. cbn [nth_error bind]. unfold getn. destruct (Hb 0%nat ltac:(lia)) as (X & _). cbn [nth] in X.
      rewrite nth_error_map_seq by exact X. reflexivity. }
  rewrite Hsel2. cbn [bind]. exists th. eexists. split; [reflexivity|]. split.
  { split.
    - intros m Hm Hi. unfold th. rewrite (nth_error_nth idx m 0%nat (A1 m Hm Hi)). reflexivity.
    - intros m Hi. destruct (B1 m Hi) as (k & Hk & Hlt & Hp). exists k. split; [exact Hp|]. unfold th. rewrite (nth_error_nth idx m 0%nat Hk). reflexivity. }
  destruct (unwrap_ok (map (fun x => x * 4) (map f2 (seq 0 L)))) as (U1 & U2 & U3). set (u := unwrap _) in *.
  assert (Lu : length u = L) by (unfold u; rewrite unwrap_length, !map_length, seq_length; reflexivity).
  split; [rewrite map_length; exact Lu|]. split.
  - intros m Hm. destruct (nth_error_lt_Some u m) as (p & Hp); [lia|].
    assert (Hx : nth_error (map (fun x => x * 4) (map f2 (seq 0 L))) m = Some (f2 m * 4)) by (rewrite nth_error_map, nth_error_map_seq by exact Hm; reflexivity).
    exists (nth m idx2 0%nat), (p / 4). split; [rewrite nth_error_map, Hp; reflexivity|]. split; [apply Hb; exact Hm|]. split.
    { pose proof (Forall2_nth _ _ _ U1 m _ _ Hx Hp) as T. cbv beta in T. replace (4 * (p / 4 - (th m + fine_offset M B (nth m idx2 0%nat)))) with (p - f2 m * 4) by (unfold f2; field). exact T. }
    split; [intros ->; rewrite Hp, Hx in U2; injection U2 as ->; unfold f2; field|]. split.
    + intros Hi. destruct (B2 m Hi) as (k & Hk & _ & Hpk). rewrite (nth_error_nth idx2 m 0%nat Hk). exact Hpk.
    + intros Hi. apply nth_error_nth. exact (A2 m Hm Hi).
  - intros m p q Hp Hq. rewrite nth_error_map in Hp, Hq. destruct (nth_error u m) as [a|] eqn:Ea; [|discriminate]. destruct (nth_error u (S m)) as [b|] eqn:Eb; [|discriminate].
    cbn [option_map] in Hp, Hq. injection Hp as <-. injection Hq as <-. pose proof (U3 _ _ _ Ea Eb) as H. replace (b / 4 - a / 4) with ((b - a) * / 4) by field.
    rewrite Rabs_mult, (Rabs_right (/ 4)) by lra. lra.
Qed.
End Row.

Lemma fine_for (row : list C) M B (th : nat -> R) : angles_for (map (fun t => map (fun j => th t + fine_offset M B j) (seq 0 B)) (seq 0 (length row))) (length row) B.
Proof.
  right. split; [rewrite map_length, seq_length; reflexivity|]. unfold rect. apply Forall_forall. intros r Hr. apply in_map_iff in Hr as (t & <- & _).
  rewrite map_length, seq_length. reflexivity.
Qed.
Lemma fine_test (row : list C) M B th t j : (t < length row)%nat -> (j < B)%nat ->
  test_angle (map (fun t => map (fun j => th t + fine_offset M B j) (seq 0 B)) (seq 0 (length row))) t j = th t + fine_offset M B j.
Proof.
  intros Ht Hj. unfold test_angle, cell. rewrite map_length, seq_length.
  assert (E : (if (length row =? 1)%nat then 0%nat else t) = t) by (destruct (Nat.eqb_spec (length row) 1); lia). rewrite E.
  rewrite (nth_error_nth _ t [] (x := map (fun j => th t + fine_offset M B j) (seq 0 B))) by (rewrite nth_error_map_seq by exact Ht; reflexivity).
  apply nth_error_nth. rewrite nth_error_map_seq by exact Hj. reflexivity.
Qed.
Definition ld (symbols : list C) (x : C) : R := match row_min (map (fun s => Cabs (x - s)%C ^ 2) symbols) with Ok d => d | Err _ => 0 end.
Lemma least_dist_unique al x d d' : least_dist al x d -> least_dist al x d' -> d = d'.
Proof. intros ((s & Hs & ->) & M1) ((s' & Hs' & ->) & M2). apply Rle_antisym; auto. Qed.

(** whole signals *)
Section Whole.
Variables (E : list (list C)) (M B N : nat) (symbols : list C).
Hypothesis (HM : (1 <= M)%nat).
Hypothesis (HB : (1 <= B)%nat).
Variables (fct : list C -> list (list R) -> list C -> nat -> result (list nat)) (method : string) (pk : (nat -> nat -> R) -> nat -> nat -> nat -> Prop).
Hypothesis (Hfct : bps_fct method = Ok fct).
Hypothesis (Hpk : forall row ta n c, In row E -> (1 <= n)%nat -> angles_for ta (length row) n -> decision_costs row ta n symbols c ->
  exists idx, fct row ta symbols N = Ok idx /\ picks (length row) N n (fun m k => pk c n m k) idx).
Lemma twostage_gen : symbols <> [] -> exists out ph th, bps_twostage E M symbols N B method = Ok (out, ph) /\ rotated_by (fun k n => cell 0 ph k n) E out /\
  forall k row, nth_error E k = Some row -> exists pr c1 c2, nth_error ph k = Some pr /\
    decision_costs row (bps_angles M) M symbols c1 /\ fine_costs row (th k) M B symbols c2 /\
    coarse_phases M (length row) N (pk c1 M) (th k) /\ two_stage_trace M B (length row) N (pk c2 B) (th k) pr.
Proof.
  intros Hne.
  assert (R : forall row, In row E -> exists th ph c1 c2, twostage_phase fct M symbols N B row = Ok ph /\
     decision_costs row (bps_angles M) M symbols c1 /\ fine_costs row th M B symbols c2 /\
     coarse_phases M (length row) N (pk c1 M) th /\ two_stage_trace M B (length row) N (pk c2 B) th ph).
  { intros row Hr. destruct (costs_exist row (bps_angles M) M symbols Hne) as (c1 & Hc1).
    set (cf := fun th : nat -> R => fun t j => ld symbols (nth t row C0 * Cexpi (th t + fine_offset M B j))%C).
    assert (Hcf : forall th, fine_costs row th M B symbols (cf th)) by (intros th t j _ _; apply least_dist_fun; exact Hne).
    destruct (twostage_row fct M B N symbols row (pk c1 M) (fun th m j => pk (cf th) B m j)) as (th & ph & E1 & E2 & E3); try assumption.
    - exact (Hpk row _ M c1 Hr HM (bps_angles_for _ _) Hc1).
    - intros th. apply (Hpk row _ B (cf th) Hr HB (fine_for row M B th)). intros t j Ht Hj. rewrite (fine_test row M B th t j Ht Hj). exact (Hcf th t j Ht Hj).
    - exists th, ph, c1, (cf th). repeat (split; [assumption || apply Hcf|]). exact E3. }
  assert (W : exists ph th, mapM (twostage_phase fct M symbols N B) E = Ok ph /\ forall k row, nth_error E k = Some row -> exists pr c1 c2, nth_error ph k = Some pr /\
    decision_costs row (bps_angles M) M symbols c1 /\ fine_costs row (th k) M B symbols c2 /\
    coarse_phases M (length row) N (pk c1 M) (th k) /\ two_stage_trace M B (length row) N (pk c2 B) (th k) pr).
  { clear Hpk. induction E as [|row E' IH]; [exists [], (fun _ _ => 0); split; [reflexivity|]; intros [|k] row H; discriminate|].
    destruct IH as (ph & th & E1 & E2); [intros r Hr; apply R; right; exact Hr|]. destruct (R row (or_introl eq_refl)) as (th0 & ph0 & c1 & c2 & R1 & R2).
    exists (ph0 :: ph), (fun k => match k with O => th0 | S k' => th k' end). cbn [mapM]. rewrite R1. cbn [bind]. rewrite E1. split; [reflexivity|].
    intros [|k] r Hk; cbn [nth_error] in *; [injection Hk as <-; exists ph0, c1, c2; split; [reflexivity|exact R2]|exact (E2 k r Hk)]. }
  destruct W as (ph & th & Hph & Htr). destruct (rotate_rows_ok E ph) as [out Hout].
  { apply Forall2_from_nth; [symmetry; eapply mapM_length; exact Hph|]. intros k row pr Hk Hpr.
    destruct (Htr k row Hk) as (pr' & c1 & c2 & Hpr' & _ & _ & _ & Hl & _). rewrite Hpr in Hpr'. injection Hpr' as <-. congruence. }
  exists out, ph, th. unfold bps_twostage. rewrite Hfct. cbn [bind]. rewrite Hph. cbn [bind]. rewrite Hout. split; [reflexivity|].
  split; [|exact Htr]. apply rotate_rows_spec in Hout. tauto.
Qed.
End Whole.

Lemma twostage_py E M B N symbols : (1 <= M)%nat -> (1 <= B)%nat -> (1 <= N)%nat -> symbols <> [] ->
  exists out ph th, bps_twostage E M symbols N B "py" = Ok (out, ph) /\ rotated_by (fun k n => cell 0 ph k n) E out /\
  forall k row, nth_error E k = Some row -> exists pr c1 c2, nth_error ph k = Some pr /\
    decision_costs row (bps_angles M) M symbols c1 /\ fine_costs row (th k) M B symbols c2 /\
    coarse_phases M (length row) N (fun m i => first_min (window_cost c1 N m) M i) (th k) /\
    two_stage_trace M B (length row) N (fun m j => first_min (window_cost c2 N m) B j) (th k) pr.
Proof.
  intros HM HB HN Hne. apply (twostage_gen E M B N symbols HM HB bps_idx_py "py" (fun c n m k => first_min (window_cost c N m) n k)); [reflexivity| |exact Hne].
  intros row ta n c _ Hn Ha Hc. destruct (python_index row ta n symbols N c Ha Hc Hn HN) as (idx & H1 & H2 & H3 & H4). exists idx. split; [exact H1|].
  split; [exact H2|]. split; [exact H3|]. intros m Hm. destruct (H4 m Hm) as (i & Hi & Hf). exists i. split; [exact Hi|]. split; [exact (proj1 Hf)|exact Hf].
Qed.
Lemma twostage_pyt E M B N symbols : (1 <= M)%nat -> (1 <= B)%nat -> symbols <> [] ->
  exists out ph th, bps_twostage E M symbols N B "pyt" = Ok (out, ph) /\ rotated_by (fun k n => cell 0 ph k n) E out /\
  forall k row, nth_error E k = Some row -> exists pr c1 c2, nth_error ph k = Some pr /\
    decision_costs row (bps_angles M) M symbols c1 /\ fine_costs row (th k) M B symbols c2 /\
    coarse_phases M (length row) N (fun m i => chosen (window_cost (capped c1) N m) M 1000 0 i) (th k) /\
    two_stage_trace M B (length row) N (fun m j => chosen (window_cost (capped c2) N m) B 1000 0 j) (th k) pr.
Proof.
  intros HM HB Hne. apply (twostage_gen E M B N symbols HM HB bps_idx_pyt "pyt" (fun c n m k => chosen (window_cost (capped c) N m) n 1000 0 k)); [reflexivity| |exact Hne].
  intros row ta n c _ Hn Ha Hc. destruct (compiled_index row ta n symbols N c Ha Hc) as (idx & H1 & H2 & H3 & H4). exists idx. split; [exact H1|].
  split; [exact H2|]. split; [exact H3|]. intros m Hm. destruct (H4 m Hm) as (i & Hi & Hf). exists i. split; [exact Hi|]. split; [|exact Hf].
  destruct Hf as [[_ ->]|[[Hf _] _]]; [lia|exact Hf].
Qed.

(** the result stays within half a first-stage step of the first-stage phase *)
Lemma fine_bound M B j : (1 <= M)%nat -> (j < B)%nat -> Rabs (fine_offset M B j) <= PI / (4 * INR M).
Proof.
  intros HM Hj. unfold fine_offset. pose proof PI_RGT_0. assert (0 < INR M) by (apply lt_0_INR; lia).
  assert (Q : -1/2 <= (if (B =? 1)%nat then 0 else INR j / INR (B - 1)) - / 2 <= 1/2).
  { destruct (Nat.eqb_spec B 1); [lra|]. assert (0 < INR (B - 1)) by (apply lt_0_INR; lia). assert (INR j <= INR (B - 1)) by (apply le_INR; lia). pose proof (pos_INR j).
    assert (0 <= INR j / INR (B - 1)) by (apply Rmult_le_pos; [lra|left; now apply Rinv_0_lt_compat]).
    assert (INR j / INR (B - 1) <= 1); [|lra]. apply (Rmult_le_reg_r (INR (B - 1))); [lra|]. unfold Rdiv. rewrite Rmult_assoc, Rinv_l by lra. lra. }
  assert (P : 0 < PI / (2 * INR M)) by (apply Rdiv_lt_0_compat; lra).
  rewrite Rabs_mult, (Rabs_right (PI / (2 * INR M))) by lra.
  replace (PI / (4 * INR M)) with (1 / 2 * (PI / (2 * INR M))) by (field; lra). apply Rmult_le_compat_r; [lra|]. apply Rabs_le. lra.
Qed.
Lemma fine_middle M h : (1 <= M)%nat -> (1 <= h)%nat -> fine_offset M (2 * h + 1) h = 0.
Proof.
  intros HM Hh. unfold fine_offset. destruct (Nat.eqb_spec (2 * h + 1) 1); [lia|]. replace (2 * h + 1 - 1)%nat with (2 * h)%nat by lia.
  rewrite mult_INR. assert (0 < INR h) by (apply lt_0_INR; lia). assert (0 < INR M) by (apply lt_0_INR; lia). cbn [INR]. field. lra.
Qed.
(** a candidate without cost in the window: the picked one has none either and does not come later *)
Lemma zero_window c N m n k k0 : (forall i j, (i < 2 * N)%nat -> (j < n)%nat -> 0 <= c (m - N + 1 + i)%nat j) -> (k0 < n)%nat ->
  (forall i, (i < 2 * N)%nat -> c (m - N + 1 + i)%nat k0 = 0) ->
  first_min (window_cost c N m) n k \/ chosen (window_cost (capped c) N m) n 1000 0 k ->
  (k <= k0)%nat /\ forall i, (i < 2 * N)%nat -> c (m - N + 1 + i)%nat k = 0.
Proof.
  intros Hp Hk0 Hz Hfm.
  assert (Z1 : window_cost c N m k0 = 0) by (apply rsum_zero; intros i Hi; apply Hz; exact Hi).
  assert (Z2 : window_cost (capped c) N m k0 = 0) by (apply rsum_zero; intros i Hi; unfold capped; rewrite (Hz i Hi); apply Rmin_left; lra).
  destruct Hfm as [(F1 & F2 & F3)|[[Hl _]|[(F1 & F2 & F3) _]]]; [| specialize (Hl k0 Hk0); lra |].
  - assert (Hnn : forall i, (i < 2 * N)%nat -> 0 <= c (m - N + 1 + i)%nat k) by (intros i Hi; apply Hp; assumption).
    pose proof (rsum_nonneg _ _ Hnn). pose proof (F2 k0 Hk0). split.
    + destruct (le_lt_dec k k0) as [|Hl]; [assumption|]. pose proof (F3 k0 Hl) as X. unfold window_cost in *. lra.
    + intros i Hi. apply (rsum_zero_inv _ _ Hnn); [unfold window_cost in *; lra|exact Hi].
  - assert (Hnn : forall i, (i < 2 * N)%nat -> 0 <= capped c (m - N + 1 + i)%nat k) by (intros i Hi; apply Rmin_glb; [apply Hp; assumption|lra]).
    pose proof (rsum_nonneg _ _ Hnn). pose proof (F2 k0 Hk0). split.
    + destruct (le_lt_dec k k0) as [|Hl]; [assumption|]. pose proof (F3 k0 Hl) as X. unfold window_cost in *. lra.
    + intros i Hi. pose proof (rsum_zero_inv _ _ Hnn ltac:(unfold window_cost in *; lra) i Hi) as X. cbv beta in X. unfold capped, Rmin in X.
      destruct (Rle_dec (c (m - N + 1 + i)%nat k) 100); lra.
Qed.

Lemma trace_mono M B L N (P Q : nat -> nat -> Prop) th pr : (forall m j, P m j -> Q m j) -> two_stage_trace M B L N P th pr -> two_stage_trace M B L N Q th pr.
Proof.
  intros H (T1 & T2 & T3). split; [exact T1|]. split; [|exact T3]. intros m Hm. destruct (T2 m Hm) as (j & p & A & B1 & C1' & D1 & E1 & F1). exists j, p. repeat (split; [try assumption; intros X; apply H, E1; exact X|]). exact F1.
Qed.
Lemma coarse_mono M L N (P Q : nat -> nat -> Prop) th : (forall m j, P m j -> Q m j) -> coarse_phases M L N P th -> coarse_phases M L N Q th.
Proof. intros H (T1 & T2). split; [exact T1|]. intros m Hm. destruct (T2 m Hm) as (k & A & B). exists k. split; [apply H; exact A|exact B]. Qed.
Lemma twostage_any E M B N symbols method : (1 <= M)%nat -> (1 <= B)%nat -> (1 <= N)%nat -> symbols <> [] -> method = "py"%string \/ method = "pyt"%string ->
  exists out ph th, bps_twostage E M symbols N B method = Ok (out, ph) /\ rotated_by (fun k n => cell 0 ph k n) E out /\
  forall k row, nth_error E k = Some row -> exists pr c1 c2, nth_error ph k = Some pr /\
    decision_costs row (bps_angles M) M symbols c1 /\ fine_costs row (th k) M B symbols c2 /\
    coarse_phases M (length row) N (fun m i => first_min (window_cost c1 N m) M i \/ chosen (window_cost (capped c1) N m) M 1000 0 i) (th k) /\
    two_stage_trace M B (length row) N (fun m i => first_min (window_cost c2 N m) B i \/ chosen (window_cost (capped c2) N m) B 1000 0 i) (th k) pr.
Proof.
  intros HM HB HN Hne [-> | ->]; [destruct (twostage_py E M B N symbols HM HB HN Hne) as (out & ph & th & A1 & A2 & A3)|destruct (twostage_pyt E M B N symbols HM HB Hne) as (out & ph & th & A1 & A2 & A3)];
    exists out, ph, th; (split; [exact A1|]); (split; [exact A2|]); intros k row Hk; destruct (A3 k row Hk) as (pr & c1 & c2 & R1 & R2 & R3 & R4 & R5);
    exists pr, c1, c2; repeat (split; [assumption|]); (split; [eapply coarse_mono; [|exact R4]; tauto|eapply trace_mono; [|exact R5]; tauto]).
Qed.

Lemma rotated_zero (row : list C) th x symbols t s (d : R) : nth_error row t = Some s -> In s symbols -> th = - x ->
  least_dist symbols (nth t (map (fun s => s * Cexpi x)%C row) C0 * Cexpi th)%C d -> d = 0.
Proof.
  intros Hs Hin -> Hd. assert (Hn : nth t (map (fun s => s * Cexpi x)%C row) C0 = (s * Cexpi x)%C) by (apply nth_error_nth; rewrite nth_error_map, Hs; reflexivity).
  rewrite Hn in Hd. pose proof (least_dist_nonneg _ _ _ Hd). destruct Hd as (_ & Hm). specialize (Hm s Hin).
  replace (s * Cexpi x * Cexpi (- x) - s)%C with C0 in Hm; [rewrite Cnorm2_0 in Hm; lra|].
  replace (s * Cexpi x * Cexpi (- x))%C with (s * (Cexpi x * Cexpi (- x)))%C by ring. rewrite <- Cexpi_add, Rplus_opp_r, Cexpi_0. cring.
Qed.
Lemma least_zero symbols x : least_dist symbols x 0 -> In x symbols.
Proof.
  intros ((s & Hs & Hd) & _). symmetry in Hd. apply Cnorm2_zero in Hd. replace x with ((x - s) + s)%C by ring. rewrite Hd. replace (C0 + s)%C with s by ring. exact Hs.
Qed.

(** a signal of alphabet symbols turned back by one of the test phases: the two-stage search with an odd
    number of offsets returns alphabet symbols away from the ends *)
Lemma odd_recovers tx M h N k0 symbols method : (1 <= N)%nat -> (k0 < M)%nat -> (1 <= h)%nat -> quarter_symmetric symbols -> symbols <> [] ->
  (forall row s, In row tx -> In s row -> In s symbols) -> method = "py"%string \/ method = "pyt"%string ->
  exists out ph, bps_twostage (map (map (fun s => s * Cexpi (- bps_angle M k0)))%C tx) M symbols N (2 * h + 1) method = Ok (out, ph) /\
    length out = length tx /\
    forall k row, nth_error tx k = Some row -> exists row', nth_error out k = Some row' /\ length row' = length row /\
      forall m s, interior (length row) (2 * N) m -> nth_error row' m = Some s -> In s symbols.
Proof.
  intros HN Hk0 Hh Hq Hne Htx Hm. set (E := map (map (fun s => s * Cexpi (- bps_angle M k0)))%C tx).
  destruct (twostage_any E M (2 * h + 1) N symbols method ltac:(lia) ltac:(lia) HN Hne Hm) as (out & ph & th & H1 & (Hl & H3) & H2).
  exists out, ph. split; [exact H1|]. split; [rewrite Hl; unfold E; apply map_length|]. intros k row Hk.
  assert (HkE : nth_error E k = Some (map (fun s => s * Cexpi (- bps_angle M k0))%C row)) by (unfold E; rewrite nth_error_map, Hk; reflexivity).
  destruct (H3 k _ HkE) as (row' & Hr' & Hlen & Hn). exists row'. split; [exact Hr'|]. rewrite map_length in Hlen. split; [exact Hlen|].
  intros m s (I1 & I2) Hs. destruct (H2 k _ HkE) as (pr & c1 & c2 & Hpr & Hc1 & Hc2 & (_ & Co) & (_ & Tr & _)). set (r := map _ row) in *.
  assert (Lr : length r = length row) by apply map_length. rewrite Lr in *.
  assert (Hsym : forall t, (t < length row)%nat -> exists s0, nth_error row t = Some s0 /\ In s0 symbols).
  { intros t Ht. destruct (nth_error_lt_Some row t Ht) as (s0 & Hs0). exists s0. split; [exact Hs0|]. apply (Htx row); eapply nth_error_In; eassumption. }
  assert (Z1 : forall t, (t < length row)%nat -> c1 t k0 = 0).
  { intros t Ht. destruct (Hsym t Ht) as (s0 & Hs0 & Hi). apply (rotated_zero row (bps_angle M k0) (- bps_angle M k0) symbols t s0 _ Hs0 Hi ltac:(ring)).
    pose proof (Hc1 t k0 ltac:(lia) Hk0) as X. rewrite bps_test_angle in X by exact Hk0. exact X. }
  assert (Z2 : forall t, interior (length row) N t -> least_dist symbols (nth t r C0 * Cexpi (th k t))%C 0).
  { intros t (J1 & J2). destruct (Co t (conj J1 J2)) as (i & Hi & Ht).
    destruct (zero_window c1 N t M i k0) as (B1 & B2); [intros a j Ha Hj; eapply least_dist_nonneg; apply Hc1; [lia|exact Hj]|exact Hk0|intros a Ha; apply Z1; lia|exact Hi|].
    specialize (B2 (N - 1)%nat ltac:(lia)). replace (t - N + 1 + (N - 1))%nat with t in B2 by lia. pose proof (Hc1 t i ltac:(lia) ltac:(lia)) as X.
    rewrite bps_test_angle, B2 in X by lia. rewrite Ht. exact X. }
  destruct (Tr m ltac:(lia)) as (j & p & Hp & Hj & Htn & _ & Hpk & _).
  destruct (zero_window c2 N m (2 * h + 1) j h) as (_ & B2).
  - intros a i Ha Hi. eapply least_dist_nonneg. apply Hc2; lia.
  - lia.
  - intros i Hi. apply (least_dist_unique symbols (nth (m - N + 1 + i) r C0 * Cexpi (th k (m - N + 1 + i)%nat))%C); [|apply Z2; split; lia].
    replace (th k (m - N + 1 + i)%nat) with (th k (m - N + 1 + i)%nat + fine_offset M (2 * h + 1) h) by (rewrite fine_middle by lia; ring). apply Hc2; lia.
  - apply Hpk. split; lia.
  - specialize (B2 (N - 1)%nat ltac:(lia)). replace (m - N + 1 + (N - 1))%nat with m in B2 by lia.
    assert (Hz : In (nth m r C0 * Cexpi (th k m + fine_offset M (2 * h + 1) j))%C symbols) by (apply least_zero; rewrite <- B2; apply Hc2; lia).
    destruct (nth_error_lt_Some r m ltac:(lia)) as (e & He). rewrite (Hn m e He) in Hs. rewrite (nth_error_nth r m C0 He) in Hz.
    assert (Hc' : cell 0 ph k m = p) by (unfold cell; rewrite (nth_error_nth ph k [] Hpr); apply nth_error_nth; exact Hp).
    rewrite Hc' in Hs. injection Hs as <-. destruct Htn as (z & Hzt).
    replace p with (th k m + fine_offset M (2 * h + 1) j + IZR z * (PI / 2)) by lra.
    rewrite Cexpi_add. replace (e * (Cexpi (th k m + fine_offset M (2 * h + 1) j) * Cexpi (IZR z * (PI / 2))))%C with ((e * Cexpi (th k m + fine_offset M (2 * h + 1) j)) * Cexpi (IZR z * (PI / 2)))%C by ring.
    apply quarter_turns; assumption.
Qed.

Lemma fine_even M h j : (1 <= M)%nat -> (1 <= h)%nat -> fine_offset M (2 * h) j <> 0.
Proof.
  intros HM Hh. unfold fine_offset. destruct (Nat.eqb_spec (2 * h) 1); [lia|]. pose proof PI_RGT_0.
  assert (0 < INR M) by (apply lt_0_INR; lia). assert (P : 0 < PI / (2 * INR M)) by (apply Rdiv_lt_0_compat; lra).
  intros Hz. apply Rmult_integral in Hz as [Hz|Hz]; [|lra]. assert (0 < INR (2 * h - 1)) by (apply lt_0_INR; lia).
  assert (X : INR (2 * j) = INR (2 * h - 1)).
  { rewrite mult_INR. cbn [INR]. apply (f_equal (fun x => x * (2 * INR (2 * h - 1)))) in Hz. unfold Rdiv in Hz.
    replace ((INR j * / INR (2 * h - 1) - / 2) * (2 * INR (2 * h - 1))) with (2 * INR j - INR (2 * h - 1)) in Hz by (field; lra). lra. }
  apply INR_eq in X. lia.
Qed.
Lemma unit_points_turn t : In (Cexpi t) [C1; Ci; (- C1)%C; (- Ci)%C] -> exists z, t = IZR z * (PI / 2).
Proof.
  assert (K : forall a, Cexpi t = Cexpi (IZR a * (PI / 2)) -> exists z, t = IZR z * (PI / 2)).
  { intros a Ha. apply Cexpi_eq_turns in Ha as (k & Hk). exists (a + 4 * k)%Z. rewrite plus_IZR, mult_IZR. lra. }
  intros [H|[H|[H|[H|[]]]]]; symmetry in H.
  - apply (K 0%Z). rewrite H. replace (0 * (PI / 2)) with 0 by ring. symmetry. apply Cexpi_0.
  - apply (K 1%Z). rewrite H. unfold Cexpi. replace (1 * (PI / 2)) with (PI / 2) by ring. rewrite cos_PI2, sin_PI2. reflexivity.
  - apply (K 2%Z). rewrite H. unfold Cexpi. replace (2 * (PI / 2)) with PI by field. rewrite cos_PI, sin_PI. unfold C1, Copp. cbn. f_equal; ring.
  - apply (K 3%Z). rewrite H. unfold Cexpi. replace (3 * (PI / 2)) with (3 * (PI / 2)) by field. rewrite cos_3PI2, sin_3PI2. unfold Ci, Copp. cbn. f_equal; ring.
Qed.
(** with an even number of offsets no interior sample of the following signal is returned as a symbol *)
Lemma even_misses M h N L method : (1 <= M)%nat -> (1 <= h)%nat -> (1 <= N)%nat -> method = "py"%string \/ method = "pyt"%string ->
  exists out ph, bps_twostage [repeat (Cexpi (PI / 4)) L] M [C1; Ci; (- C1)%C; (- Ci)%C] N (2 * h) method = Ok (out, ph) /\
    forall m s, interior L N m -> nth_error (nth 0 out []) m = Some s -> ~ In s [C1; Ci; (- C1)%C; (- Ci)%C].
Proof.
  intros HM Hh HN Hm. set (al := [C1; Ci; (- C1)%C; (- Ci)%C]).
  destruct (twostage_any [repeat (Cexpi (PI / 4)) L] M (2 * h) N al method HM ltac:(lia) HN ltac:(discriminate) Hm) as (out & ph & th & H1 & (Hl & H3) & H2).
  exists out, ph. split; [exact H1|]. intros m s (I1 & I2) Hs Hin. destruct (H3 0%nat _ eq_refl) as (row' & Hr' & Hlen & Hn). rewrite (nth_error_nth out 0 [] Hr') in Hs.
  destruct (H2 0%nat _ eq_refl) as (pr & c1 & c2 & Hpr & Hc1 & Hc2 & (C0' & Co) & (_ & Tr & _)). rewrite repeat_length in *.
  assert (A0 : bps_angle M 0 = - (PI / 4)) by (unfold bps_angle; cbn [INR]; unfold Rdiv; lra).
  assert (Hrep : forall t, (t < L)%nat -> nth_error (repeat (Cexpi (PI / 4)) L) t = Some (Cexpi (PI / 4))).
  { intros t Ht. destruct (nth_error_lt_Some (repeat (Cexpi (PI / 4)) L) t) as (e & He); [rewrite repeat_length; exact Ht|]. rewrite He. f_equal. eapply repeat_spec, nth_error_In, He. }
  assert (Z1 : forall t, (t < L)%nat -> c1 t 0%nat = 0).
  { intros t Ht. pose proof (Hc1 t 0%nat) as X. rewrite repeat_length, bps_test_angle, A0 in X by lia. specialize (X Ht HM).
    rewrite (nth_error_nth _ t C0 (Hrep t Ht)) in X. rewrite <- Cexpi_add, Rplus_opp_r, Cexpi_0 in X. pose proof (least_dist_nonneg _ _ _ X). destruct X as (_ & X).
    specialize (X C1 (or_introl eq_refl)). replace (C1 - C1)%C with C0 in X by ring. rewrite Cnorm2_0 in X. lra. }
  assert (Th : th 0%nat m = - (PI / 4)).
  { destruct (Co m (conj I1 I2)) as (i & Hi & Ht). destruct (zero_window c1 N m M i 0%nat) as (B1 & _); [|lia|intros a Ha; apply Z1; lia|exact Hi|].
    - intros a j Ha Hj. eapply least_dist_nonneg. apply Hc1; [rewrite repeat_length; lia|exact Hj].
    - replace i with 0%nat in Ht by lia. lra. }
  destruct (Tr m ltac:(lia)) as (j & p & Hp & Hj & (z & Hzt) & _). rewrite (Hn m _ (Hrep m ltac:(lia))) in Hs.
  assert (Hc' : cell 0 ph 0 m = p) by (unfold cell; rewrite (nth_error_nth ph 0%nat [] Hpr); apply nth_error_nth; exact Hp).
  rewrite Hc' in Hs. injection Hs as <-. rewrite <- Cexpi_add in Hin. apply unit_points_turn in Hin as (z' & Hz').
  pose proof (fine_bound M (2 * h) j HM Hj) as Bd. pose proof (fine_even M h j HM Hh) as Ne.
  assert (Tn : turns (4 * fine_offset M (2 * h) j)) by (exists (z' - z)%Z; rewrite minus_IZR; lra).
  apply small_turn in Tn; [lra|]. pose proof PI_RGT_0. assert (1 <= INR M) by (change 1 with (INR 1); apply le_INR; exact HM).
  assert (PI / (4 * INR M) <= PI / 4) by (apply Rmult_le_compat_l; [lra|]; apply Rinv_le_contravar; lra). revert Bd. unfold Rabs. destruct (Rcase_abs (fine_offset M (2 * h) j)); lra.
Qed.

(** compared with the one-stage search *)
Lemma first_min_unique f g n i j : (forall k, (k < n)%nat -> f k = g k) -> first_min f n i -> first_min g n j -> i = j.
Proof.
  intros Hfg (A1 & A2 & A3) (B1 & B2 & B3). destruct (lt_eq_lt_dec i j) as [[H| ->]|H]; [|reflexivity|]; exfalso.
  - pose proof (B3 i H). pose proof (A2 j B1). rewrite !Hfg in * by lia. lra.
  - pose proof (A3 j H). pose proof (B2 i A1). rewrite <- !Hfg in * by lia. lra.
Qed.
Lemma chosen_unique f g n lim i j : (forall k, (k < n)%nat -> f k = g k) -> chosen f n lim 0 i -> chosen g n lim 0 j -> i = j.
Proof.
  intros Hfg [(A1 & ->)|(A1 & A2)] [(B1 & ->)|(B1 & B2)]; [reflexivity| | |].
  - exfalso. pose proof (A1 j (proj1 B1)). rewrite Hfg in H by exact (proj1 B1). lra.
  - exfalso. pose proof (B1 i (proj1 A1)). rewrite <- Hfg in H by exact (proj1 A1). lra.
  - exact (first_min_unique f g n i j Hfg A1 B1).
Qed.
Lemma costs_agree (row : list C) ta n symbols c c' t k : decision_costs row ta n symbols c -> decision_costs row ta n symbols c' -> (t < length row)%nat -> (k < n)%nat -> c t k = c' t k.
Proof. intros H H' Ht Hk. exact (least_dist_unique _ _ _ _ (H t k Ht Hk) (H' t k Ht Hk)). Qed.
Lemma twostage_near E M B N symbols method o1 p1 o2 p2 : (1 <= M)%nat -> (1 <= B)%nat -> (1 <= N)%nat -> symbols <> [] -> method = "py"%string \/ method = "pyt"%string ->
  core_bps E M symbols N method = Ok (o1, p1) -> bps_twostage E M symbols N B method = Ok (o2, p2) ->
  forall k row m, nth_error E k = Some row -> interior (length row) N m ->
  exists x, Rabs x <= PI / (4 * INR M) /\ turns (4 * (cell 0 p2 k m - cell 0 p1 k m - x)).
Proof.
  intros HM HB HN Hne Hm H1 H2 k row m Hk Hi. destruct (costs_exist_modes E (bps_angles M) M symbols Hne) as (c & Hc).
  assert (G : exists pr1 pr2 th c1 i i', nth_error p1 k = Some pr1 /\ nth_error p2 k = Some pr2 /\ decision_costs row (bps_angles M) M symbols c1 /\ i = i' /\
    (exists p, nth_error pr1 m = Some p /\ turns (4 * (p - bps_angle M i))) /\ th m = bps_angle M i' /\
    exists j p, nth_error pr2 m = Some p /\ (j < B)%nat /\ turns (4 * (p - (th m + fine_offset M B j)))).
  { assert (Wc : forall c1, decision_costs row (bps_angles M) M symbols c1 -> (forall i, (i < M)%nat -> window_cost (c k) N m i = window_cost c1 N m i) /\
      (forall i, (i < M)%nat -> window_cost (capped (c k)) N m i = window_cost (capped c1) N m i)).
    { intros c1 Hc1. destruct Hi as (I1 & I2). split; intros i Hi'; unfold window_cost; apply rsum_ext; intros a Ha; unfold capped; rewrite (costs_agree row _ M symbols (c k) c1 _ i (Hc k row Hk) Hc1) by lia; reflexivity. }
    destruct Hm as [-> | ->].
    - destruct (bps_py E M symbols N c HM HN Hc) as (o & p & A1 & A2 & _). rewrite H1 in A1. injection A1 as <- <-.
      destruct (twostage_py E M B N symbols HM HB HN Hne) as (o' & p' & th & B1 & _ & B3). rewrite H2 in B1. injection B1 as <- <-.
      destruct (A2 k row Hk) as (pr1 & P1 & _ & _ & T1 & _). destruct (B3 k row Hk) as (pr2 & c1 & c2 & P2 & D1 & _ & (_ & Co) & (_ & Tr & _)).
      destruct (T1 m Hi) as (i & p & Fi & Hp & Htp & _). destruct (Co m Hi) as (i' & Fi' & Hth). destruct (Tr m ltac:(destruct Hi; lia)) as (j & q & Hq & Hj & Htq & _).
      exists pr1, pr2, (th k), c1, i, i'. split; [exact P1|]. split; [exact P2|]. split; [exact D1|]. split; [exact (first_min_unique _ _ M i i' (proj1 (Wc c1 D1)) Fi Fi')|].
      split; [exists p; split; assumption|]. split; [exact Hth|]. exists j, q. repeat split; assumption.
    - destruct (bps_pyt E M symbols N c HM HN Hc) as (o & p & A1 & A2 & _). rewrite H1 in A1. injection A1 as <- <-.
      destruct (twostage_pyt E M B N symbols HM HB Hne) as (o' & p' & th & B1 & _ & B3). rewrite H2 in B1. injection B1 as <- <-.
      destruct (A2 k row Hk) as (pr1 & P1 & _ & _ & T1 & _). destruct (B3 k row Hk) as (pr2 & c1 & c2 & P2 & D1 & _ & (_ & Co) & (_ & Tr & _)).
      destruct (T1 m Hi) as (i & p & Fi & Hp & Htp & _). destruct (Co m Hi) as (i' & Fi' & Hth). destruct (Tr m ltac:(destruct Hi; lia)) as (j & q & Hq & Hj & Htq & _).
      exists pr1, pr2, (th k), c1, i, i'. split; [exact P1|]. split; [exact P2|]. split; [exact D1|]. split; [exact (chosen_unique _ _ M 1000 i i' (proj2 (Wc c1 D1)) Fi Fi')|].
      split; [exists p; split; assumption|]. split; [exact Hth|]. exists j, q. repeat split; assumption. }
  destruct G as (pr1 & pr2 & th & c1 & i & i' & P1 & P2 & _ & <- & (p & Hp & Tp) & Hth & j & q & Hq & Hj & Tq).
  exists (fine_offset M B j). split; [exact (fine_bound M B j HM Hj)|]. unfold cell. rewrite (nth_error_nth p2 k [] P2), (nth_error_nth p1 k [] P1), (nth_error_nth pr1 m 0 Hp), (nth_error_nth pr2 m 0 Hq).
  rewrite Hth in Tq. replace (4 * (q - p - fine_offset M B j)) with (4 * (q - (bps_angle M i + fine_offset M B j)) - 4 * (p - bps_angle M i)) by ring. apply turns_sub; assumption.
Qed.
