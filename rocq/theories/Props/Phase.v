(** Properties C38, C39, C48, C49, C60, C80-C82: phase and frequency recovery. *)
From Coq Require Import String List ZArith Bool Reals Arith Lia Lra.
From Verif Require Import Common.Py Common.Cplx Common.SumX Common.Angle Model.Windows Model.Quality Model.Sync Model.Pilots Model.Phase
  Spec.Seq Spec.Equal Spec.Frames Spec.PhaseSpec Proofs.PhaseP Proofs.PhaseQ Proofs.PhaseV Proofs.PhaseR Proofs.PhaseS Proofs.PhaseT.
Import ListNotations.
Local Open Scope R_scope.

(** ** C38 *)
(** [s] is a signal of m frames with the phase theta k added to mode k.  False in general (last
    theorem); true when the references are repeated in step with the frames. *)
Theorem C38_const_partial : forall t s pil m r avg ratio mb n use_seq sel (theta : nat -> R),
  pilot_signal t pil m r -> same_layout t s -> (1 < avg)%nat -> (1 <= ratio)%nat -> (n <= m)%nat ->
  every_nth ratio (limited mb (skipn (unused t use_seq) (nonzero pil))) sel -> in_step t pil m r use_seq ratio mb n ->
  (odd_up avg <= n * length sel)%nat ->
  rotated_by (fun k _ => theta k) (p_rows t) (p_rows s) ->
  exists tr, pilot_cpe s avg ratio mb n use_seq = Ok (map (firstn (n * p_frame_len t)) (p_rows t), tr).
Proof. intros. eapply whole_const; try eassumption. reflexivity. Qed.
Print Assumptions C38_const_partial.
(** a linear phase and equally spaced pilots: exact between the first and the last averaged pilot *)
Theorem C38_line_partial : forall t s pil m r avg ratio mb n use_seq sel (a b : nat -> R) p0 d,
  pilot_signal t pil m r -> same_layout t s -> (1 < avg)%nat -> (1 <= ratio)%nat -> (n <= m)%nat ->
  every_nth ratio (limited mb (skipn (unused t use_seq) (nonzero pil))) sel -> in_step t pil m r use_seq ratio mb n ->
  (odd_up avg <= n * length sel)%nat ->
  rotated_by (fun k i => a k + b k * INR i) (p_rows t) (p_rows s) ->
  (forall q, (q < n * length sel)%nat -> pilot_at sel (p_frame_len t) q = (p0 + d * q)%nat) ->
  (forall k, (k < length (p_rows t))%nat -> Rabs (b k * INR d) < PI) ->
  let h := ((odd_up avg - 1) / 2)%nat in
  exists out tr, pilot_cpe s avg ratio mb n use_seq = Ok (out, tr) /\ length out = length (p_rows t) /\
    forall k row, nth_error (p_rows t) k = Some row -> exists row', nth_error out k = Some row' /\ length row' = (n * p_frame_len t)%nat /\
      forall i, (pilot_at sel (p_frame_len t) h <= i <= pilot_at sel (p_frame_len t) (n * length sel - 1 - h))%nat -> (i < n * p_frame_len t)%nat ->
        nth_error row' i = nth_error row i.
Proof. intros. eapply whole_line; try eassumption. reflexivity. Qed.
Print Assumptions C38_line_partial.
(** the constant phase found from received pilots is the applied one up to full turns *)
Theorem C38_find_partial : forall rec refs (theta : nat -> R), length rec = length refs ->
  (forall l rc rf, nth_error rec l = Some rc -> nth_error refs l = Some rf -> rf <> [] /\ received rf rc (fun _ => theta l)) ->
  exists off, find_pilot_const_phase rec refs = Ok (map Some off) /\ length off = length rec /\
    forall l o, nth_error off l = Some o -> turns (o - theta l).
Proof. exact find_const. Qed.
Print Assumptions C38_find_partial.
Theorem C38_correct_partial : forall tx sig (theta : nat -> R) off, rotated_by (fun k _ => theta k) tx sig -> length off = length tx ->
  (forall l o, nth_error off l = Some o -> turns (o - theta l)) -> correct_pilot_const_phase sig off = Ok tx.
Proof. exact correct_const. Qed.
Print Assumptions C38_correct_partial.
(** a signal of three frames from the constructor, unimpaired: its second symbol comes back rotated *)
Theorem C38_refuted : exists genp gend s, pilot_new C0 genp gend 3 1 2 3 1 false true = Ok s /\ well_shaped 1 genp /\ well_shaped 1 gend /\
  (forall k row a, In row (genp k) -> In a row -> a <> C0) /\
  exists out tr row s1, pilot_cpe s 3 1 None 3 false = Ok (out, tr) /\
    nth_error (p_rows s) 0 = Some row /\ nth_error row 1 = Some s1 /\ s1 <> C0 /\
    nth_error (nth 0 out []) 1 = Some (s1 * Cexpi (- (PI / 6)))%C.
Proof. exact pilots_period_wrong. Qed.
Print Assumptions C38_refuted.

(** ** C39 *)
(** every phase that turns by less than half a turn between pilots: the trace interpolates the moving
    averages of the true phases at the pilots of all n frames *)
Theorem C39_partial : forall t s pil m r avg ratio mb n use_seq sel (ph : nat -> nat -> R),
  pilot_signal t pil m r -> same_layout t s -> (1 < avg)%nat -> (1 <= ratio)%nat -> (n <= m)%nat ->
  every_nth ratio (limited mb (skipn (unused t use_seq) (nonzero pil))) sel -> in_step t pil m r use_seq ratio mb n ->
  (odd_up avg <= n * length sel)%nat -> rotated_by ph (p_rows t) (p_rows s) ->
  (forall k q, (k < length (p_rows t))%nat -> (S q < n * length sel)%nat ->
    Rabs (ph k (pilot_at sel (p_frame_len t) (S q)) - ph k (pilot_at sel (p_frame_len t) q)) < PI) ->
  let h := ((odd_up avg - 1) / 2)%nat in
  exists out tr, pilot_cpe s avg ratio mb n use_seq = Ok (out, tr) /\ length tr = length (p_rows t) /\
  rotated_by (fun k i => ph k i - cell 0 tr k i) (map (firstn (n * p_frame_len t)) (p_rows t)) out /\
  forall k, (k < length (p_rows t))%nat -> exists c, turns c /\ forall i, (i < n * p_frame_len t)%nat ->
    interpolates (pilot_at sel (p_frame_len t)) (fun q => mean_at (fun j => ph k (pilot_at sel (p_frame_len t) j)) (q - h) (odd_up avg) + c)
      h (n * length sel - 1 - h) i (cell 0 tr k i).
Proof. intros. eapply whole_general; eassumption. Qed.
Print Assumptions C39_partial.
(** signals from the constructor have this form *)
Theorem C39_constructor_partial : forall (junk : C) genp gend fl sq rat m nmodes rd s,
  (sq <= fl)%nat -> (0 < fl)%nat -> (rat = 0%nat \/ Nat.divide rat (fl - sq)) -> (1 <= nmodes)%nat -> (1 <= m)%nat ->
  well_shaped nmodes genp -> well_shaped nmodes gend ->
  (forall k row a, In row (genp k) -> In a row -> a <> C0) ->
  pilot_new junk genp gend fl (Z.of_nat sq) (Z.of_nat rat) m nmodes rd true = Ok s ->
  exists pil, (forall k, (k < fl)%nat -> nth_error pil k = Some true <-> pilot_pos sq rat k) /\ count_true pil = n_pilots fl sq rat /\
    pilot_signal s pil m 1 /\ p_frame_len s = fl /\ p_seq_len s = Z.of_nat sq.
Proof. exact pilot_new_signal. Qed.
Print Assumptions C39_constructor_partial.
(** three frames of the constructor without the leading pilots: the references are one pilot off in the
    second frame *)
Theorem C39_refuted : exists genp gend s, pilot_new C0 genp gend 3 1 2 3 1 false true = Ok s /\ well_shaped 1 genp /\ well_shaped 1 gend /\
  (forall k row a, In row (genp k) -> In a row -> a <> C0) /\
  exists out tr row s1, pilot_cpe s 3 1 None 3 false = Ok (out, tr) /\
    nth_error (p_rows s) 0 = Some row /\ nth_error row 1 = Some s1 /\ s1 <> C0 /\
    nth_error (nth 0 out []) 1 = Some (s1 * Cexpi (- (PI / 6)))%C.
Proof. exact pilots_period_wrong. Qed.
Print Assumptions C39_refuted.
(** two frames with max_num_blocks = 2 of three pilots *)
Theorem C39_blocks_refuted : exists genp gend s, pilot_new C0 genp gend 6 0 2 2 1 false true = Ok s /\ well_shaped 1 genp /\ well_shaped 1 gend /\
  (forall k row a, In row (genp k) -> In a row -> a <> C0) /\
  exists out tr row s1, pilot_cpe s 3 1 (Some 2%nat) 2 false = Ok (out, tr) /\
    nth_error (p_rows s) 0 = Some row /\ nth_error row 0 = Some s1 /\ s1 <> C0 /\
    nth_error (nth 0 out []) 0 = Some (s1 * Cexpi (PI / 6))%C.
Proof. exact blocks_limit_wrong. Qed.
Print Assumptions C39_blocks_refuted.

(** the frame of [ex_sig] turned by a third of pi *)
Example C38_case : exists tr, pilot_cpe (ex_sig [map (fun x => x * Cexpi (PI / 3))%C ex_frame]) 3 1 None 1 true = Ok ([ex_frame], tr).
Proof.
  apply (C38_const_partial (ex_sig [ex_frame]) _ [true; true; true; false] 1 1 3 1 None 1 true [0; 1; 2]%nat (fun _ => PI / 3)).
  - exact ex_pilot_signal.
  - repeat split.
  - lia.
  - lia.
  - lia.
  - split; [reflexivity|]. intros i. rewrite Nat.mul_1_r. reflexivity.
  - left. reflexivity.
  - cbn. lia.
  - split; [reflexivity|]. intros [|[|k]] row Hk; try discriminate. injection Hk as <-. eexists. split; [reflexivity|]. split; [reflexivity|].
    intros n s Hs. rewrite nth_error_map, Hs. reflexivity.
Qed.
Example C38_find_case : exists o, find_pilot_const_phase [[Ci; (- C1)%C]] [[C1; Ci]] = Ok [Some o] /\ turns (o - PI / 2).
Proof.
  assert (Hi : Cexpi (PI / 2) = Ci) by (unfold Cexpi; rewrite cos_PI2, sin_PI2; reflexivity).
  destruct (C38_find_partial [[Ci; (- C1)%C]] [[C1; Ci]] (fun _ => PI / 2) eq_refl) as (off & E & L & T).
  { intros [|[|l]] rc rf H1 H2; try discriminate. injection H1 as <-. injection H2 as <-. split; [discriminate|]. split; [reflexivity|].
    intros [|[|[|q]]] a Ha; try discriminate; injection Ha as <-; (split; [intros E; injection E; lra|]); exists 1; (split; [lra|]); rewrite Hi; cbn [nth_error]; f_equal; cring. }
  destruct off as [|o [|o' off]]; try discriminate. exists o. split; [exact E|]. apply (T 0%nat). reflexivity.
Qed.

(** ** C48 *)
(** False of the compiled search (the last two theorems).  The pure-Python search, for one row of test
    angles or one row per sample: *)
Theorem C48_python_partial : forall E ta M symbols N c, angles_for ta (length E) M -> decision_costs E ta M symbols c ->
  (1 <= M)%nat -> (1 <= N)%nat ->
  exists idx, bps_idx_py E ta symbols N = Ok idx /\ length idx = length E /\
    (forall m, (m < length E)%nat -> ~ interior (length E) N m -> nth_error idx m = Some 0%nat) /\
    (forall m, interior (length E) N m -> exists k, nth_error idx m = Some k /\ first_min (window_cost c N m) M k).
Proof. exact python_index. Qed.
Print Assumptions C48_python_partial.
(** the compiled search limits every distance to 100 and keeps index 0 if all windows cost 1000 or more *)
Theorem C48_compiled_limits_partial : forall E ta M symbols N c, angles_for ta (length E) M -> decision_costs E ta M symbols c ->
  exists idx, bps_idx_pyt E ta symbols N = Ok idx /\ length idx = length E /\
    (forall m, (m < length E)%nat -> ~ interior (length E) N m -> nth_error idx m = Some 0%nat) /\
    (forall m, interior (length E) N m -> exists k, nth_error idx m = Some k /\
       chosen (window_cost (capped c) N m) M 1000 0 k).
Proof. exact compiled_index. Qed.
Print Assumptions C48_compiled_limits_partial.
Theorem C48_compiled_partial : forall E ta M symbols N c, angles_for ta (length E) M -> decision_costs E ta M symbols c ->
  (forall t k, (t < length E)%nat -> (k < M)%nat -> c t k <= 100) ->
  (forall m, interior (length E) N m -> exists k, (k < M)%nat /\ window_cost c N m k < 1000) ->
  exists idx, bps_idx_pyt E ta symbols N = Ok idx /\ length idx = length E /\
    (forall m, (m < length E)%nat -> ~ interior (length E) N m -> nth_error idx m = Some 0%nat) /\
    (forall m, interior (length E) N m -> exists k, nth_error idx m = Some k /\ first_min (window_cost c N m) M k).
Proof. exact compiled_index_small. Qed.
Print Assumptions C48_compiled_partial.
Theorem C48_agree_partial : forall E ta M symbols N c, angles_for ta (length E) M -> decision_costs E ta M symbols c ->
  (1 <= M)%nat -> (1 <= N)%nat ->
  (forall t k, (t < length E)%nat -> (k < M)%nat -> c t k <= 100) ->
  (forall m, interior (length E) N m -> exists k, (k < M)%nat /\ window_cost c N m k < 1000) ->
  bps_idx_pyt E ta symbols N = bps_idx_py E ta symbols N.
Proof. exact index_agree. Qed.
Print Assumptions C48_agree_partial.
(** samples far from the alphabet: the compiled search picks 0, the minimiser is 1 *)
Theorem C48_refuted : exists i1 i2, bps_idx_pyt (@repeat C (12, 0) 3) [[PI; 0]] [C1] 1 = Ok i1 /\ bps_idx_py (@repeat C (12, 0) 3) [[PI; 0]] [C1] 1 = Ok i2 /\
  interior 3 1 1 /\ nth_error i1 1 = Some 0%nat /\ nth_error i2 1 = Some 1%nat /\
  exists c, decision_costs (@repeat C (12, 0) 3) [[PI; 0]] 2 [C1] c /\ first_min (window_cost c 1 1) 2 1.
Proof. exact compiled_capped. Qed.
Print Assumptions C48_refuted.
(** N = 0 *)
Theorem C48_no_window_refuted : bps_idx_pyt [C1; C1] [[0]] [C1] 0 = Ok [0; 0]%nat /\ bps_idx_py [C1; C1] [[0]] [C1] 0 = Err ValueError.
Proof. exact no_window. Qed.
Print Assumptions C48_no_window_refuted.

(** ** C49 *)
Theorem C49_bps_partial : forall E M symbols N method out ph, core_bps E M symbols N method = Ok (out, ph) -> same_modulus E out.
Proof. intros E M symbols N method out ph H. exact (proj1 (same_mod_bps _ _ _ _ _ _ _ H)). Qed.
Print Assumptions C49_bps_partial.
Theorem C49_comp_freq_partial : forall sig fo os,
  ((length sig <= length fo)%nat -> exists out, comp_freq_offset sig fo os = Ok out /\ same_modulus sig out) /\
  ((length fo < length sig)%nat -> exists e, comp_freq_offset sig fo os = Err e).
Proof.
  intros sig fo os. split; intros H; [|apply comp_freq_short; exact H].
  destruct (comp_freq_rot sig fo os H) as (out & E & R). exists out. split; [exact E|]. eapply rotated_same_modulus; exact R.
Qed.
Print Assumptions C49_comp_freq_partial.
Theorem C49_phase_noise_partial : forall sig g df fs, Forall2 (fun a b => length a = length b) sig g ->
  exists out, apply_phase_noise sig g df fs = Ok out /\ same_modulus sig out /\
    rotated_by (fun k n => sqrt (2 * PI * df / fs) * Rsum (firstn (S n) (nth k g []))) sig out.
Proof.
  intros sig g df fs H. destruct (phase_noise_rot sig g df fs H) as (out & E & R). exists out. split; [exact E|].
  split; [eapply rotated_same_modulus; exact R|exact R].
Qed.
Print Assumptions C49_phase_noise_partial.
Theorem C49_carrier_partial : forall sig fo fs, same_modulus sig (add_carrier_offset sig fo fs) /\
  rotated_by (fun _ n => 2 * PI * INR n * fo / fs) sig (add_carrier_offset sig fo fs).
Proof. intros sig fo fs. split; [eapply rotated_same_modulus|]; apply carrier_rot. Qed.
Print Assumptions C49_carrier_partial.
(** the pilot CPE keeps the moduli of the frames it returns *)
Theorem C49_pilot_cpe_partial : forall sig pilots pidx fl avg ratio mb n out tr,
  pilot_based_cpe_new sig pilots pidx fl avg ratio mb n = Ok (out, tr) ->
  same_modulus (map (firstn (Nat.min (n * fl) (row_len sig))) sig) out.
Proof. exact cpe_modulus. Qed.
Print Assumptions C49_pilot_cpe_partial.
(** it returns nframes frames only, by default one *)
Theorem C49_refuted : exists s out tr, pilot_new C0 (fun n => [repeat C1 n]) (fun n => [repeat C1 n]) 4 3 0 2 1 false true = Ok s /\
  pilot_cpe s 3 1 None 1 true = Ok (out, tr) /\ map (@length C) (p_rows s) = [8%nat] /\ map (@length C) out = [4%nat].
Proof. exact truncates. Qed.
Print Assumptions C49_refuted.
Example C49_case : nth_error (nth 0 (add_carrier_offset [[C1; C1]] 1 4) []) 1 = Some Ci.
Proof.
  destruct (C49_carrier_partial [[C1; C1]] 1 4) as [_ [_ H]]. destruct (H 0%nat _ eq_refl) as (r & R1 & _ & R2).
  rewrite (nth_error_nth _ 0 [] R1), (R2 1%nat C1 eq_refl). cbn [INR].
  replace (2 * PI * 1 * 1 / 4) with (PI / 2) by field. unfold Cexpi. rewrite cos_PI2, sin_PI2. f_equal. cring.
Qed.

(** ** C60 *)
(** the offset in units of the symbol rate fs/os *)
Theorem C60_offset_roundtrip : forall sig fo fs os, os <> 0 -> fs <> 0 ->
  exists out, comp_freq_offset (add_carrier_offset sig fo fs) (repeat (fo * os / fs) (length sig)) os = Ok out /\
    rotated_by (fun _ _ => - (2 * PI * fo / fs)) sig out.
Proof. exact offset_comp. Qed.
Print Assumptions C60_offset_roundtrip.
Example C60_case : exists out, comp_freq_offset (add_carrier_offset [[C1; Ci]; [Ci; C1]] 3 8) [3/4; 3/4] 2 = Ok out /\
  rotated_by (fun _ _ => - (3 * PI / 4)) [[C1; Ci]; [Ci; C1]] out.
Proof.
  destruct (C60_offset_roundtrip [[C1; Ci]; [Ci; C1]] 3 8 2 ltac:(lra) ltac:(lra)) as (out & E & R). exists out.
  cbn [repeat length] in E. replace (3 * 2 / 8) with (3 / 4) in E by field. split; [exact E|].
  destruct R as [R1 R2]. split; [exact R1|]. intros k row Hk. destruct (R2 k row Hk) as (r & A1 & A2 & A3). exists r.
  split; [exact A1|]. split; [exact A2|]. intros n s Hs. rewrite (A3 n s Hs). do 3 f_equal. field.
Qed.

(** ** C80 *)
Theorem C80_bps_python : forall E M symbols N c, (1 <= M)%nat -> (1 <= N)%nat ->
  (forall k row, nth_error E k = Some row -> decision_costs row (bps_angles M) M symbols (c k)) ->
  exists out ph, core_bps E M symbols N "py" = Ok (out, ph) /\
    (forall k row, nth_error E k = Some row -> exists pr, nth_error ph k = Some pr /\
       bps_trace M (length row) N (fun m i => first_min (window_cost (c k) N m) M i) pr) /\
    rotated_by (fun k n => cell 0 ph k n) E out.
Proof. exact bps_py. Qed.
Print Assumptions C80_bps_python.
Theorem C80_bps_compiled : forall E M symbols N c, (1 <= M)%nat -> (1 <= N)%nat ->
  (forall k row, nth_error E k = Some row -> decision_costs row (bps_angles M) M symbols (c k)) ->
  exists out ph, core_bps E M symbols N "pyt" = Ok (out, ph) /\
    (forall k row, nth_error E k = Some row -> exists pr, nth_error ph k = Some pr /\
       bps_trace M (length row) N (fun m i => chosen (window_cost (capped (c k)) N m) M 1000 0 i) pr) /\
    rotated_by (fun k n => cell 0 ph k n) E out.
Proof. exact bps_pyt. Qed.
Print Assumptions C80_bps_compiled.
(** such costs always exist *)
Theorem C80_costs : forall (E : list (list C)) ta M symbols, symbols <> [] ->
  exists c, forall k row, nth_error E k = Some row -> decision_costs row ta M symbols (c k).
Proof. exact costs_exist_modes. Qed.
Print Assumptions C80_costs.
Theorem C80_recovers : forall tx M symbols N k0 method, (1 <= N)%nat -> (k0 < M)%nat -> quarter_symmetric symbols ->
  (forall row s, In row tx -> In s row -> In s symbols) -> symbols <> [] -> method = "py"%string \/ method = "pyt"%string ->
  exists out ph, core_bps (map (map (fun s => s * Cexpi (- bps_angle M k0)))%C tx) M symbols N method = Ok (out, ph) /\
    length out = length tx /\
    forall k row, nth_error tx k = Some row -> exists row', nth_error out k = Some row' /\ length row' = length row /\
      forall m s, interior (length row) N m -> nth_error row' m = Some s -> In s symbols.
Proof. exact bps_recovers. Qed.
Print Assumptions C80_recovers.
(** QPSK turned by an eighth of a turn *)
Example C80_case : exists out ph,
  core_bps (map (map (fun s => s * Cexpi (PI / 4)))%C [[C1; Ci; C1]]) 2 [C1; Ci; (- C1)%C; (- Ci)%C] 1 "pyt" = Ok (out, ph) /\
  exists row' s, nth_error out 0 = Some row' /\ nth_error row' 1 = Some s /\ In s [C1; Ci; (- C1)%C; (- Ci)%C].
Proof.
  destruct (C80_recovers [[C1; Ci; C1]] 2 [C1; Ci; (- C1)%C; (- Ci)%C] 1 0 "pyt") as (out & ph & E & L & H).
  - lia.
  - lia.
  - intros s Hs. cbn [In] in *. destruct Hs as [<-|[<-|[<-|[<-|[]]]]]; [right; left|right; right; left|right; right; right; left|left]; cring.
  - intros row s [<-|[]] Hs. cbn [In] in *. tauto.
  - discriminate.
  - auto.
  - replace (PI / 4) with (- bps_angle 2 0) by (unfold bps_angle; cbn [INR]; field). exists out, ph. split; [exact E|].
    destruct (H 0%nat _ eq_refl) as (row' & R1 & R2 & R3). destruct (nth_error row' 1) as [s|] eqn:Es.
    + exists row', s. split; [exact R1|]. split; [exact Es|]. apply (R3 1%nat); [split; cbn; lia|exact Es].
    + exfalso. apply nth_error_None in Es. rewrite R2 in Es. cbn in Es. lia.
Qed.

(** ** C81 *)
(** M-PSK with amplitudes r, phases phi (M phi = pi) and a linear phase that turns M-fold by less than one
    turn over the N averaged samples: the linear phase is removed up to one multiple of 2 pi/M per mode
    (and half a step for even N); the ends are zero *)
Theorem C81_viterbi : forall E N M (r phi : nat -> nat -> R) (theta0 om : nat -> R), (1 <= N)%nat -> (1 <= M)%nat ->
  (forall k row, nth_error E k = Some row -> (N <= length row)%nat /\
     polar_row (length row) (r k) (phi k) (theta0 k) (om k) row /\
     (forall n, (n < length row)%nat -> 0 < r k n /\ turns (INR M * phi k n - PI)) /\
     Rabs (INR M * om k) * INR N < 2 * PI /\ Rabs (INR M * om k) < PI) ->
  exists out pe, viterbiviterbi E N M = Ok (out, pe) /\ length out = length E /\
    forall k row, nth_error E k = Some row -> exists row' (z : Z), nth_error out k = Some row' /\ length row' = length row /\
      forall n, (n < length row)%nat -> nth_error row' n =
        Some (if ((N - 1) / 2 <=? n) && (n + N / 2 <? length row) then
                Cscal (r k n) (Cexpi (phi k n + ((if Nat.even N then - (om k / 2) else 0) - IZR z * (2 * PI) / INR M)))
              else C0)%nat.
Proof. exact vv_modes. Qed.
Print Assumptions C81_viterbi.
(** QPSK, three equal symbols turned by 1, N = 3: the middle one *)
Example C81_case : exists out pe row' (z : Z), viterbiviterbi [map (fun _ => Cscal 2 (Cexpi (PI / 4 + (1 + 0)))) (seq 0 3)] 3 4 = Ok (out, pe) /\
  nth_error out 0 = Some row' /\ nth_error row' 0 = Some C0 /\
  nth_error row' 1 = Some (Cscal 2 (Cexpi (PI / 4 + (0 - IZR z * (2 * PI) / INR 4)))).
Proof.
  pose proof PI_RGT_0 as Hpi.
  destruct (C81_viterbi [map (fun _ => Cscal 2 (Cexpi (PI / 4 + (1 + 0)))) (seq 0 3)] 3 4 (fun _ _ => 2) (fun _ _ => PI / 4) (fun _ => 1) (fun _ => 0))
    as (out & pe & E & L & H).
  - lia.
  - lia.
  - intros [|[|k]] row Hk; try discriminate. injection Hk as <-. split; [cbn; lia|]. split; [|split; [|split]].
    + split; [reflexivity|]. intros n Hn. rewrite Rmult_0_l. destruct n as [|[|[|n]]]; [reflexivity..|cbn in Hn; lia].
    + intros n Hn. split; [lra|]. replace (INR 4 * (PI / 4) - PI) with 0 by (cbn [INR]; field). apply turns_0.
    + rewrite Rmult_0_r, Rabs_R0. lra.
    + rewrite Rmult_0_r, Rabs_R0. lra.
  - destruct (H 0%nat _ eq_refl) as (row' & z & R1 & R2 & R3). exists out, pe, row', z. split; [exact E|]. split; [exact R1|].
    split; [apply (R3 0%nat); cbn; lia|apply (R3 1%nat); cbn; lia].
Qed.

(** ** C82 *)
Theorem C82_pilot_foe : forall rec pilots (theta f : nat -> R), length rec = length pilots ->
  (forall l rc rf, nth_error rec l = Some rc -> nth_error pilots l = Some rf ->
     (2 <= length rf)%nat /\ Rabs (f l) < / 2 /\ received rf rc (fun n => theta l + 2 * PI * f l * INR n)) ->
  exists icpt, pilot_based_foe rec pilots =
    Ok (Some (Rmean (map f (seq 0 (length rec))), map f (seq 0 (length rec)), icpt)) /\
    length icpt = length rec /\ forall l c, nth_error icpt l = Some c -> turns (c - theta l).
Proof. exact foe_ok. Qed.
Print Assumptions C82_pilot_foe.
(** a quarter of the symbol rate *)
Example C82_case : exists m c, pilot_based_foe [[C1; (- C1)%C; (- C1)%C]] [[C1; Ci; C1]] = Ok (Some (m, [1 / 4], c)).
Proof.
  assert (Hi : Cexpi (PI / 2) = Ci) by (unfold Cexpi; rewrite cos_PI2, sin_PI2; reflexivity).
  destruct (C82_pilot_foe [[C1; (- C1)%C; (- C1)%C]] [[C1; Ci; C1]] (fun _ => 0) (fun _ => 1 / 4) eq_refl) as (c & E & _).
  - intros [|[|l]] rc rf H1 H2; try discriminate. injection H1 as <-. injection H2 as <-. split; [cbn; lia|].
    split; [rewrite Rabs_right; lra|]. split; [reflexivity|].
    intros [|[|[|[|q]]]] a Ha; try discriminate; injection Ha as <-; (split; [intros E; injection E; lra|]); exists 1; (split; [lra|]); cbn [nth_error INR]; f_equal.
    + replace (0 + 2 * PI * (1 / 4) * 0) with 0 by ring. rewrite Cexpi_0. cring.
    + replace (0 + 2 * PI * (1 / 4) * 1) with (PI / 2) by field. rewrite Hi. cring.
    + replace (0 + 2 * PI * (1 / 4) * (1 + 1)) with PI by field. unfold Cexpi. rewrite cos_PI, sin_PI. cring.
  - eexists _, c. exact E.
Qed.
