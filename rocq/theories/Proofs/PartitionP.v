(** 16-QAM partitioning and the phase estimate built on it *)
From Coq Require Import String List ZArith Bool Lia ZifyBool ZifyNat Reals Lra Psatz Arith.
From Verif Require Import Common.Py Common.ListX Common.Cplx Common.Angle Model.Sync Model.Quality Model.Hybrid Model.Phase Model.Estimate
  Spec.Seq Spec.Equal Spec.Frames Spec.PhaseSpec Spec.EstimateS Proofs.DecisionP Proofs.PhaseP Proofs.PhaseQ Proofs.EstimateP Proofs.QualityQ.
Import ListNotations.
Open Scope list_scope.
Local Open Scope R_scope.

Lemma s0_part e p x : e <> [] -> 0 < p -> / 2 < x <= 1 -> moment2 e = p -> moment4 e = p ^ 2 / x ->
  s0_of partition_gamma e = Some (p * ((2 * x - 1 + sqrt (41 / 33 * (2 * x ^ 2 - x))) / (2 * x - 1 + sqrt (41 / 33 * (2 * x ^ 2 - x)) + (1 - 25 / 33 * x)))).
Proof.
  intros He Hp Hx M2 M4. unfold s0_of, s1_s2. destruct e as [|z e]; [congruence|]. rewrite moments_eq, M2, M4. cbv zeta. cbn [fst].
  assert (P2 : 0 < p ^ 2) by (apply pow_lt; lra). assert (Px : 0 < p ^ 2 / x) by (apply Rdiv_lt_0_compat; lra).
  destruct (Req_EM_T (p ^ 2 / x) 0); [lra|].
  assert (Eg : partition_gamma = 25 / 33) by (unfold partition_gamma; field).
  assert (Er : (2 - partition_gamma) * (2 * p ^ 4 / (p ^ 2 / x) ^ 2 - p ^ 2 / (p ^ 2 / x)) = 41 / 33 * (2 * x ^ 2 - x)) by (rewrite Eg; field; lra).
  rewrite Er. assert (Hr : 0 <= 41 / 33 * (2 * x ^ 2 - x)) by nra. destruct (Rlt_dec _ 0); [lra|].
  replace (2 * p ^ 2 / (p ^ 2 / x)) with (2 * x) by (field; lra). replace (partition_gamma * p ^ 2 / (p ^ 2 / x)) with (25 / 33 * x) by (rewrite Eg; field; lra).
  pose proof (sqrt_pos (41 / 33 * (2 * x ^ 2 - x))) as Hs. set (s := sqrt _) in *.
  assert (S1 : 1 - 2 * x - s < 0) by lra. assert (S2 : 25 / 33 * x - 1 < 0) by lra.
  destruct (Req_EM_T (1 - 2 * x - s) 0); [lra|].
  assert (Q : 0 < (25 / 33 * x - 1) / (1 - 2 * x - s)).
  { replace ((25 / 33 * x - 1) / (1 - 2 * x - s)) with ((1 - 25 / 33 * x) / (2 * x - 1 + s)) by (field; lra). apply Rdiv_lt_0_compat; lra. }
  destruct (Req_EM_T _ 0); [lra|]. apply (f_equal Some). field. lra.
Qed.
(** the fraction between bounds *)
Lemma frac_bounds t u l h : 0 < t -> 0 < u -> l * (t + u) < t < h * (t + u) -> l < t / (t + u) < h.
Proof.
  intros Ht Hu (H1 & H2). split; apply (Rmult_lt_reg_r (t + u)); try lra; unfold Rdiv; rewrite Rmult_assoc, Rinv_l; lra.
Qed.
Lemma sqrt_between x l h : 0 <= l -> 0 <= h -> l ^ 2 < x < h ^ 2 -> l < sqrt x < h.
Proof.
  intros Hl Hh (H1 & H2). assert (0 <= l ^ 2) by apply pow2_ge_0. split.
  - rewrite <- (sqrt_pow2 l Hl). apply sqrt_lt_1; lra.
  - rewrite <- (sqrt_pow2 h Hh). apply sqrt_lt_1; lra.
Qed.
Lemma s0_bounds e p x sl sh l h : e <> [] -> 0 < p -> / 2 < x <= 1 -> moment2 e = p -> moment4 e = p ^ 2 / x -> 0 <= sl -> 0 <= sh ->
  sl ^ 2 < 41 / 33 * (2 * x ^ 2 - x) < sh ^ 2 -> 0 <= l -> h <= 1 ->
  l * (2 * x - 1 + sl + (1 - 25 / 33 * x)) < 2 * x - 1 + sl -> 2 * x - 1 + sh < h * (2 * x - 1 + sh + (1 - 25 / 33 * x)) ->
  exists s, s0_of partition_gamma e = Some s /\ l * p < s < h * p.
Proof.
  intros He Hp Hx M2 M4 Hl0 Hh0 Hs Hl Hh B1 B2. rewrite (s0_part e p x He Hp Hx M2 M4). eexists. split; [reflexivity|].
  pose proof (sqrt_between _ sl sh Hl0 Hh0 Hs) as (Q1 & Q2). set (s := sqrt _) in *. set (t := 2 * x - 1 + s).
  destruct (frac_bounds t (1 - 25 / 33 * x) l h) as (F1 & F2); try (unfold t; lra).
  - unfold t. assert (0 <= 1 - l).
    { destruct (Rle_dec l 1); [lra|]. exfalso. assert (0 < 2 * x - 1 + sl) by lra. assert (0 < 1 - 25 / 33 * x) by lra. nra. }
    split; nra.
  - split; [rewrite (Rmult_comm l); apply Rmult_lt_compat_l; lra|rewrite (Rmult_comm h); apply Rmult_lt_compat_l; lra].
Qed.
(** the two thresholds *)
Lemma thresholds s l h : 0 <= l -> 0 <= h -> l ^ 2 < s < h ^ 2 ->
  7236 / 10000 * l < (sqrt (s / 5) + sqrt s) / 2 < 72362 / 100000 * h /\ 11708 / 10000 * l < (sqrt (9 * s / 5) + sqrt s) / 2 < 117083 / 100000 * h.
Proof.
  intros Hl Hh Hs. destruct (sqrt_between s l h Hl Hh Hs) as (A1 & A2). assert (0 <= l ^ 2) by apply pow2_ge_0. assert (0 <= h ^ 2) by apply pow2_ge_0.
  destruct (sqrt_between (s / 5) (4472 / 10000 * l) (44723 / 100000 * h)) as (B1 & B2); [lra|lra|rewrite !Rpow_mult_distr; split; lra|].
  destruct (sqrt_between (9 * s / 5) (13416 / 10000 * l) (134165 / 100000 * h)) as (D1 & D2); [lra|lra|rewrite !Rpow_mult_distr; split; lra|].
  lra.
Qed.
Definition mask_of (inner outer : R) (z : C) : bool := if Rlt_dec (Cabs z) inner then true else if Rlt_dec outer (Cabs z) then true else false.
Lemma partition_mask e s : s0_of partition_gamma e = Some s -> 0 <= s -> partition_16qam e = Some (map (mask_of ((sqrt (s / 5) + sqrt s) / 2) ((sqrt (9 * s / 5) + sqrt s) / 2)) e).
Proof. intros H Hs. unfold partition_16qam. rewrite H. destruct (Rlt_dec s 0); [lra|]. reflexivity. Qed.
Lemma Cabs_between (z : C) n a l h : 0 < a -> Cnorm2 z = n * a ^ 2 -> 0 <= l -> 0 <= h -> l ^ 2 < n < h ^ 2 -> l * a < Cabs z < h * a.
Proof.
  intros Ha Hz Hl Hh (H1 & H2). unfold Cabs. assert (0 < a ^ 2) by (apply pow_lt; lra). apply sqrt_between; [nra|nra|]. rewrite Hz, !Rpow_mult_distr. split; apply Rmult_lt_compat_r; assumption.
Qed.

(** noise-free 16-QAM with rings in the proportion 1:2:1 *)
Lemma partition_ideal e a : e <> [] -> 0 < a -> moment2 e = 10 * a ^ 2 -> moment4 e = 132 * a ^ 4 ->
  (forall z, In z e -> Cnorm2 z = 2 * a ^ 2 \/ Cnorm2 z = 10 * a ^ 2 \/ Cnorm2 z = 18 * a ^ 2) ->
  exists mask, partition_16qam e = Some mask /\ Forall2 (fun z b => b = true <-> Cnorm2 z <> 10 * a ^ 2) e mask.
Proof.
  intros He Ha M2 M4 Hr. assert (P : 0 < a ^ 2) by (apply pow_lt; lra).
  destruct (s0_bounds e (10 * a ^ 2) (25 / 33) (6963 / 10000) (6964 / 10000) (7396 / 10000) (74 / 100)) as (s & Hs & S1 & S2); try lra; try assumption.
  rewrite (partition_mask e s Hs) by lra. eexists. split; [reflexivity|].
  destruct (thresholds s (271 / 100 * a) (273 / 100 * a)) as ((I1 & I2) & O1 & O2); [lra|lra|rewrite !Rpow_mult_distr; lra|].
  set (inn := (sqrt (s / 5) + sqrt s) / 2) in *. set (out := (sqrt (9 * s / 5) + sqrt s) / 2) in *.
  clear He M2 M4 Hs. induction e as [|z e IH]; [constructor|]. constructor; [|apply IH; intros w Hw; apply Hr; right; exact Hw].
  unfold mask_of. destruct (Hr z (or_introl eq_refl)) as [Hz|[Hz|Hz]].
  - destruct (Cabs_between z 2 a (141 / 100) (142 / 100)) as (B1 & B2); try lra; try assumption. destruct (Rlt_dec (Cabs z) inn); [|lra]. split; [intros _; lra|reflexivity].
  - destruct (Cabs_between z 10 a (316 / 100) (31623 / 10000)) as (B1 & B2); try lra; try assumption. destruct (Rlt_dec (Cabs z) inn); [lra|]. destruct (Rlt_dec out (Cabs z)); [lra|].
    split; [discriminate|intros H; contradiction].
  - destruct (Cabs_between z 18 a (424 / 100) (425 / 100)) as (B1 & B2); try lra; try assumption. destruct (Rlt_dec (Cabs z) inn); [reflexivity || (split; [intros _; lra|reflexivity])|].
    destruct (Rlt_dec out (Cabs z)); [|lra]. split; [intros _; lra|reflexivity].
Qed.
(** inner and outer ring alone, in equal numbers *)
Lemma partition_diag e a : e <> [] -> 0 < a -> moment2 e = 10 * a ^ 2 -> moment4 e = 164 * a ^ 4 ->
  (forall z, In z e -> Cnorm2 z = 2 * a ^ 2 \/ Cnorm2 z = 18 * a ^ 2) -> partition_16qam e = Some (repeat true (length e)).
Proof.
  intros He Ha M2 M4 Hr. assert (P : 0 < a ^ 2) by (apply pow_lt; lra).
  destruct (s0_bounds e (10 * a ^ 2) (25 / 41) (40 / 100) (41 / 100) (53 / 100) (54 / 100)) as (s & Hs & S1 & S2); try lra; try assumption.
  rewrite (partition_mask e s Hs) by lra. apply (f_equal Some).
  destruct (thresholds s (23 / 10 * a) (233 / 100 * a)) as ((I1 & I2) & O1 & O2); [lra|lra|rewrite !Rpow_mult_distr; lra|].
  set (inn := (sqrt (s / 5) + sqrt s) / 2) in *. set (out := (sqrt (9 * s / 5) + sqrt s) / 2) in *.
  clear He M2 M4 Hs. induction e as [|z e IH]; [reflexivity|]. cbn [map length repeat]. rewrite IH by (intros w Hw; apply Hr; right; exact Hw). f_equal.
  unfold mask_of. destruct (Hr z (or_introl eq_refl)) as [Hz|Hz].
  - destruct (Cabs_between z 2 a (141 / 100) (142 / 100)) as (B1 & B2); try lra; try assumption. destruct (Rlt_dec (Cabs z) inn); [reflexivity|lra].
  - destruct (Cabs_between z 18 a (424 / 100) (425 / 100)) as (B1 & B2); try lra; try assumption. destruct (Rlt_dec (Cabs z) inn); [reflexivity|].
    destruct (Rlt_dec out (Cabs z)); [reflexivity|lra].
Qed.
(** a middle-ring symbol off by a twentieth of the symbol spacing *)
Lemma partition_noisy : exists mask, partition_16qam [(1, 1); (31 / 10, 1); (1, 3); (3, 3)] = Some mask /\ nth 1 mask false = true.
Proof.
  set (e := [(1, 1); (31 / 10, 1); (1, 3); (3, 3)]).
  assert (M2 : moment2 e = 4061 / 400) by (unfold e, moment2, Rmean, Cnorm2; cbn; lra).
  assert (M4 : moment4 e = 5405721 / 40000) by (unfold e, moment4, Rmean, Cnorm2; cbn; lra).
  destruct (s0_bounds e (4061 / 400) ((4061 / 400) ^ 2 / (5405721 / 40000)) (7 / 10) (71 / 100) (74 / 100) (75 / 100)) as (s & Hs & S1 & S2); try lra; try assumption; try discriminate.
  rewrite (partition_mask e s Hs) by lra. eexists. split; [reflexivity|].
  destruct (thresholds s (273 / 100) (276 / 100)) as ((I1 & I2) & O1 & O2); try lra.
  set (inn := (sqrt (s / 5) + sqrt s) / 2) in *. set (out := (sqrt (9 * s / 5) + sqrt s) / 2) in *. cbn [map nth e]. unfold mask_of.
  destruct (Cabs_between (31 / 10, 1) (1061 / 100) 1 (325 / 100) (326 / 100)) as (B1 & B2); try lra; [unfold Cnorm2; cbn; lra|].
  destruct (Rlt_dec _ inn); [reflexivity|]. destruct (Rlt_dec out _); [reflexivity|lra].
Qed.

(** ** the phase estimate *)
Lemma partition_length e mask : partition_16qam e = Some mask -> length mask = length e.
Proof.
  unfold partition_16qam. destruct (s0_of _ e) as [s|]; [|discriminate]. destruct (Rlt_dec s 0); [discriminate|]. cbv zeta. intros H. injection H as <-. apply map_length.
Qed.
Lemma blocks_nth {A} (f : list A -> R) n : (1 <= n)%nat -> forall fuel (l : list A) i, (length l <= fuel)%nat -> (i < length l)%nat ->
  nth_error (flat_map (fun b => repeat (f b) (length b)) (blocks fuel n l)) i = Some (f (firstn n (skipn (n * (i / n)) l))).
Proof.
  intros Hn. induction fuel as [|fuel IH]; intros l i Hl Hi; [lia|]. destruct l as [|x l]; [cbn in Hi; lia|]. cbn [blocks flat_map]. set (l0 := x :: l) in *.
  destruct (lt_dec i n) as [Hin|Hin].
  - rewrite Nat.div_small by exact Hin. rewrite Nat.mul_0_r. cbn [skipn]. rewrite nth_error_app1 by (rewrite repeat_length, firstn_length; lia).
    destruct (nth_error_lt_Some (repeat (f (firstn n l0)) (length (firstn n l0))) i) as (e & He); [rewrite repeat_length, firstn_length; lia|].
    rewrite He. f_equal. eapply repeat_spec, nth_error_In, He.
  - assert (Hf : length (firstn n l0) = n) by (rewrite firstn_length; lia). rewrite nth_error_app2; rewrite repeat_length, Hf; [|lia].
    rewrite IH; [|rewrite skipn_length; lia|rewrite skipn_length; lia]. rewrite skipn_skipn'. replace (n + n * ((i - n) / n))%nat with (n * (i / n))%nat; [reflexivity|].
    replace (i / n)%nat with (((i - n) + 1 * n) / n)%nat by (f_equal; lia). rewrite Nat.div_add by lia. lia.
Qed.
Lemma blocks_length {A} (f : list A -> R) n : (1 <= n)%nat -> forall fuel (l : list A), (length l <= fuel)%nat ->
  length (flat_map (fun b => repeat (f b) (length b)) (blocks fuel n l)) = length l.
Proof.
  intros Hn. induction fuel as [|fuel IH]; intros l Hl; [destruct l; [reflexivity|cbn in Hl; lia]|]. destruct l as [|x l]; [reflexivity|]. cbn [blocks flat_map].
  rewrite app_length, repeat_length, IH by (rewrite skipn_length; cbn [length] in *; lia). rewrite <- app_length, firstn_skipn. reflexivity.
Qed.
Lemma partition_phase_nth nb row phi : partition_phase nb row = Ok phi -> exists mask, partition_16qam row = Some mask /\ (1 <= nb)%nat /\ length phi = length row /\
  forall i, (i < length row)%nat -> nth_error phi i = Some (block_phase (firstn nb (skipn (nb * (i / nb)) (combine row mask)))).
Proof.
  unfold partition_phase. destruct (Nat.eqb_spec nb 0); [discriminate|]. destruct (partition_16qam row) as [mask|] eqn:Em; [|discriminate]. intros H. injection H as <-.
  assert (Lm := partition_length row mask Em). assert (Lc : length (combine row mask) = length row) by (rewrite combine_length; lia).
  exists mask. split; [reflexivity|]. split; [lia|]. split; [rewrite blocks_length by lia; exact Lc|]. intros i Hi. apply blocks_nth; lia.
Qed.

(** the field is turned by four times the reported phase of the last mode, and half a turn *)
Lemma partition_rotation E nb out ph : phase_partition_16qam E nb = Ok (out, ph) -> length ph = length E /\ E <> [] /\
  rotated_by (fun _ n => - (4 * cell 0 ph (length E - 1) n + PI)) E out.
Proof.
  unfold phase_partition_16qam. destruct (mapM (partition_phase nb) E) as [phis|] eqn:Em; [|discriminate]. cbn [bind].
  destruct (rev phis) as [|pe rs] eqn:Er; [discriminate|]. destruct (mapM (fun row => rotate_row row (map Ropp pe)) E) as [o|] eqn:Eo; [|discriminate]. cbn [bind]. intros H. injection H as <- <-.
  pose proof (mapM_length _ _ _ Em) as L1. pose proof (mapM_length _ _ _ Eo) as L2.
  assert (Ep : phis = rev rs ++ [pe]) by (rewrite <- (rev_involutive phis), Er; reflexivity).
  assert (Ln : (length E - 1)%nat = length (rev rs)) by (rewrite <- L1, Ep, app_length; cbn; lia).
  split; [rewrite map_length; exact L1|]. split; [intros ->; cbn in L1; rewrite Ep, app_length in L1; cbn in L1; lia|].
  split; [exact L2|]. intros k row Hk. destruct (mapM_nth _ _ _ _ _ Eo Hk) as (row' & Hk' & Hr). exists row'. split; [exact Hk'|].
  unfold rotate_row in Hr. destruct (Nat.eqb_spec (length row) (length (map Ropp pe))) as [El|]; [|discriminate]. injection Hr as <-.
  split; [rewrite map_length, combine_length; lia|]. intros n s Hs. rewrite map_length in El.
  assert (Hn : (n < length row)%nat) by (apply nth_error_Some; congruence). destruct (nth_error_lt_Some pe n ltac:(lia)) as (x & Hx).
  rewrite nth_error_map, (nth_error_combine row (map Ropp pe) n s (- x) Hs) by (rewrite nth_error_map, Hx; reflexivity). cbn [option_map fst snd]. apply (f_equal Some). apply (f_equal (fun w => (s * w)%C)).
  apply Cexpi_turns. destruct (unwrap_ok pe) as (U1 & _ & _). destruct (nth_error_lt_Some (unwrap pe) n) as (u & Hu); [rewrite unwrap_length; lia|].
  assert (Hc : cell 0 (map (fun phi => map (fun p => p / 4 - PI / 4) (unwrap phi)) phis) (length E - 1) n = u / 4 - PI / 4).
  { unfold cell. rewrite Ep, map_app, app_nth2; rewrite map_length; [|lia]. rewrite Ln, Nat.sub_diag. cbn [map nth]. apply nth_error_nth. rewrite nth_error_map, Hu. reflexivity. }
  rewrite Hc. replace (- x - - (4 * (u / 4 - PI / 4) + PI)) with (u - x) by field. exact (Forall2_nth _ _ _ U1 n x u Hx Hu).
Qed.

Lemma block_diag (blk : list (C * bool)) th : blk <> [] -> (forall p, In p blk -> snd p = true /\ exists r k, 0 < r /\ fst p = Cscal r (Cexpi (th + PI / 4 + INR k * (PI / 2)))) ->
  turns (block_phase blk - (4 * th + PI)).
Proof.
  intros Hne H. unfold block_phase.
  assert (F : filter (fun p : C * bool => negb (snd p)) blk = []).
  { clear Hne. induction blk as [|p blk IH]; [reflexivity|]. cbn [filter]. rewrite (proj1 (H p (or_introl eq_refl))). cbn [negb]. apply IH. intros q Hq. apply H. right. exact Hq. }
  rewrite F. cbn [map]. replace (Csum []) with C0 by reflexivity.
  assert (S : exists A, 0 < A /\ Csum (map (fun p : C * bool => if snd p then Cpow (fst p) 4 else C0) blk) = Cscal A (Cexpi (4 * th + PI))).
  { clear F. assert (T : forall p, In p blk -> exists a, 0 < a /\ (if snd p then Cpow (fst p) 4 else C0) = Cscal a (Cexpi (4 * th + PI))).
    { intros p Hp. destruct (H p Hp) as (-> & r & k & Hr & ->). exists (r ^ 4). split; [apply pow_lt; exact Hr|]. rewrite Cpow_scal, Cpow_expi. f_equal. apply Cexpi_turns.
      exists (Z.of_nat k). rewrite <- INR_IZR_INZ. cbn [INR]. field. }
    clear H. induction blk as [|p blk IH]; [congruence|]. cbn [map]. rewrite Csum_cons. destruct (T p (or_introl eq_refl)) as (a & Ha & ->).
    destruct blk as [|q blk]; [exists a; split; [exact Ha|]; cbn; apply C_eq; cbn; ring|].
    destruct IH as (A & HA & ->); [discriminate|intros x Hx; apply T; right; exact Hx|]. exists (a + A). split; [lra|]. apply C_eq; cbn; ring. }
  destruct S as (A & HA & ->). replace (Cscal A (Cexpi (4 * th + PI)) + C0)%C with (Cscal A (Cexpi (4 * th + PI))) by (apply C_eq; cbn; ring). apply Carg_scal_expi. exact HA.
Qed.
Lemma in_firstn_skipn {A} (l : list A) a b x : In x (firstn a (skipn b l)) -> exists i, (b <= i < b + a)%nat /\ nth_error l i = Some x.
Proof.
  intros H. apply In_nth_error in H as (j & Hj). assert (Hl : (j < length (firstn a (skipn b l)))%nat) by (apply nth_error_Some; congruence). rewrite firstn_length in Hl.
  exists (b + j)%nat. split; [lia|]. rewrite <- nth_error_skipn'. rewrite <- Hj. symmetry. apply nth_error_firstn_lt. lia.
Qed.
(** inner and outer points of a 16-QAM signal in equal numbers, one phase per block *)
Lemma partition_diag_phase nb row a th phi : row <> [] -> 0 < a -> moment2 row = 10 * a ^ 2 -> moment4 row = 164 * a ^ 4 -> (1 <= nb)%nat ->
  (forall i z, nth_error row i = Some z -> exists r k, (r ^ 2 = 2 * a ^ 2 \/ r ^ 2 = 18 * a ^ 2) /\ 0 < r /\ z = Cscal r (Cexpi (th (i / nb)%nat + PI / 4 + INR k * (PI / 2)))) ->
  partition_phase nb row = Ok phi -> length phi = length row /\ forall i x, nth_error phi i = Some x -> turns (x - (4 * th (i / nb)%nat + PI)).
Proof.
  intros Hne Ha M2 M4 Hnb Hr H. destruct (partition_phase_nth nb row phi H) as (mask & Hm & _ & Lp & Hn). split; [exact Lp|]. intros i x Hx.
  rewrite (partition_diag row a Hne Ha M2 M4) in Hm.
  2:{ intros z Hz. apply In_nth_error in Hz as (j & Hj). destruct (Hr j z Hj) as (r & k & Hv & Hp & ->). rewrite Cnorm2_scal, Cnorm2_expi. destruct Hv; [left|right]; lra. }
  injection Hm as <-. assert (Hi : (i < length row)%nat) by (rewrite <- Lp; apply nth_error_Some; congruence). rewrite (Hn i Hi) in Hx. injection Hx as <-.
  assert (Lc : length (combine row (repeat true (length row))) = length row) by (rewrite combine_length, repeat_length; lia).
  assert (Hd : (nb * (i / nb) <= i < nb * (i / nb) + nb)%nat) by (pose proof (Nat.div_mod i nb ltac:(lia)); pose proof (Nat.mod_upper_bound i nb ltac:(lia)); lia).
  apply block_diag.
  - intros E. apply (f_equal (@length (C * bool))) in E. rewrite firstn_length, skipn_length, Lc in E. cbn [length] in E. lia.
  - intros p Hp. apply in_firstn_skipn in Hp as (j & Hj & Hjp). assert (Hjl : (j < length row)%nat) by (rewrite <- Lc; apply nth_error_Some; congruence).
    destruct (nth_error_lt_Some row j Hjl) as (z & Hz). destruct (nth_error_lt_Some (repeat true (length row)) j) as (b & Hb); [rewrite repeat_length; exact Hjl|].
    rewrite (nth_error_combine _ _ _ _ _ Hz Hb) in Hjp. injection Hjp as <-. cbn [fst snd]. split; [eapply repeat_spec, nth_error_In, Hb|].
    destruct (Hr j z Hz) as (r & k & _ & Hp & Hzv). exists r, k. split; [exact Hp|]. rewrite Hzv. replace (j / nb)%nat with (i / nb)%nat; [reflexivity|].
    apply (Nat.div_unique j nb (i / nb) (j - nb * (i / nb))); lia.
Qed.

Lemma phase_partition_one row nb phi : partition_phase nb row = Ok phi -> exists out, phase_partition_16qam [row] nb = Ok ([out], [map (fun p => p / 4 - PI / 4) (unwrap phi)]).
Proof.
  intros H. destruct (partition_phase_nth nb row phi H) as (_ & _ & _ & L & _). unfold phase_partition_16qam. cbn [mapM]. rewrite H. cbn [bind rev app].
  unfold rotate_row. rewrite map_length, L, Nat.eqb_refl. cbn [bind]. eexists. reflexivity.
Qed.
Lemma unwrap_nth phi i u : nth_error (unwrap phi) i = Some u -> exists x, nth_error phi i = Some x /\ turns (u - x).
Proof.
  intros Hu. destruct (unwrap_ok phi) as (U1 & _ & _). assert (Hi : (i < length phi)%nat) by (rewrite <- unwrap_length; apply nth_error_Some; congruence).
  destruct (nth_error_lt_Some phi i Hi) as (x & Hx). exists x. split; [exact Hx|]. exact (Forall2_nth _ _ _ U1 i x u Hx Hu).
Qed.
(** the reported phases are the phases of the blocks up to quarter turns *)
Lemma partition_diag_trace nb E ph out k row a th : phase_partition_16qam E nb = Ok (out, ph) -> nth_error E k = Some row ->
  row <> [] -> 0 < a -> moment2 row = 10 * a ^ 2 -> moment4 row = 164 * a ^ 4 ->
  (forall i z, nth_error row i = Some z -> exists r q, (r ^ 2 = 2 * a ^ 2 \/ r ^ 2 = 18 * a ^ 2) /\ 0 < r /\ z = Cscal r (Cexpi (th (i / nb)%nat + PI / 4 + INR q * (PI / 2)))) ->
  exists pr, nth_error ph k = Some pr /\ length pr = length row /\ forall i p, nth_error pr i = Some p -> turns (4 * (p - th (i / nb)%nat)).
Proof.
  intros H Hk Hne Ha M2 M4 Hr. unfold phase_partition_16qam in H. destruct (mapM (partition_phase nb) E) as [phis|] eqn:Em; [|discriminate]. cbn [bind] in H.
  destruct (rev phis) as [|pe rs] eqn:Er; [discriminate|]. destruct (mapM (fun row => rotate_row row (map Ropp pe)) E) as [o|] eqn:Eo; [|discriminate]. cbn [bind] in H. injection H as <- <-.
  destruct (mapM_nth _ _ _ _ _ Em Hk) as (phi & Hphi & Hp). destruct (partition_phase_nth nb row phi Hp) as (_ & _ & Hnb & _).
  destruct (partition_diag_phase nb row a th phi Hne Ha M2 M4 Hnb Hr Hp) as (L & T).
  exists (map (fun p => p / 4 - PI / 4) (unwrap phi)). split; [rewrite nth_error_map, Hphi; reflexivity|]. split; [rewrite map_length, unwrap_length; exact L|].
  intros i p Hi. rewrite nth_error_map in Hi. destruct (nth_error (unwrap phi) i) as [u|] eqn:Eu; [|discriminate]. cbn [option_map] in Hi. injection Hi as <-.
  destruct (unwrap_nth phi i u Eu) as (x & Hx & Ht). replace (4 * (u / 4 - PI / 4 - th (i / nb)%nat)) with ((u - x) + (x - (4 * th (i / nb)%nat + PI))) by field.
  apply turns_add; [exact Ht|exact (T i x Hx)].
Qed.

(** two points on the diagonal, turned by theta: the field comes back turned by -3 theta and half a turn *)
Lemma sqrt_sq c : 0 <= c -> sqrt c ^ 2 = c.
Proof. intros H. cbn [pow]. rewrite Rmult_1_r. apply sqrt_sqrt. exact H. Qed.
Lemma diag_polar c : 0 < c -> (c, c) = Cscal (sqrt (2 * c ^ 2)) (Cexpi (PI / 4)).
Proof.
  intros H. assert (E : sqrt (2 * c ^ 2) = sqrt 2 * c) by (rewrite sqrt_mult, sqrt_pow2; try lra; apply pow2_ge_0). rewrite E.
  pose proof (sqrt_lt_R0 2 ltac:(lra)) as P. apply C_eq; cbn [fst snd Cscal Cexpi]; rewrite ?cos_PI4, ?sin_PI4; field; lra.
Qed.
Lemma partition_triples t : exists ph, phase_partition_16qam [map (fun z => z * Cexpi t)%C [(1, 1); (3, 3)]] 2 = Ok ([map (fun z => z * Cexpi (- (3 * t) - PI))%C [(1, 1); (3, 3)]], [ph]) /\
  length ph = 2%nat /\ forall p, In p ph -> turns (4 * (p - t)).
Proof.
  set (row := map (fun z => z * Cexpi t)%C [(1, 1); (3, 3)]).
  assert (N : forall c, Cnorm2 ((c, c) * Cexpi t)%C = 2 * c ^ 2) by (intros c; rewrite Cnorm2_mul, Cnorm2_expi; unfold Cnorm2; cbn; ring).
  assert (M2 : moment2 row = 10 * 1 ^ 2) by (unfold row, moment2, Rmean; cbn [map]; rewrite !N; cbn; lra).
  assert (M4 : moment4 row = 164 * 1 ^ 4) by (unfold row, moment4, Rmean; cbn [map]; rewrite !N; cbn; lra).
  assert (Hr : forall i z, nth_error row i = Some z -> exists r q, (r ^ 2 = 2 * 1 ^ 2 \/ r ^ 2 = 18 * 1 ^ 2) /\ 0 < r /\ z = Cscal r (Cexpi (t + PI / 4 + INR q * (PI / 2)))).
  { assert (K : forall c, 0 < c -> ((c, c) * Cexpi t)%C = Cscal (sqrt (2 * c ^ 2)) (Cexpi (t + PI / 4 + INR 0 * (PI / 2)))).
    { intros c Hc. rewrite (diag_polar c Hc) at 1. cbn [INR]. replace (t + PI / 4 + 0 * (PI / 2)) with (PI / 4 + t) by lra. rewrite Cexpi_add. apply C_eq; cbn; ring. }
    intros i z Hi. unfold row in Hi. destruct i as [|[|i]]; cbn [map nth_error] in Hi; [| |destruct i; discriminate]; injection Hi as <-; rewrite K by lra; match goal with |- context [sqrt ?c] => exists (sqrt c) end; exists 0%nat; (split; [|split; [apply sqrt_lt_R0; lra|reflexivity]]); rewrite sqrt_sq by lra; first [left; lra|right; lra]. }
  assert (Hp : partition_16qam row = Some [true; true]).
  { apply (partition_diag row 1); try assumption; try discriminate; try lra. intros z Hz. unfold row in Hz. cbn [map] in Hz. destruct Hz as [<-|[<-|[]]]; rewrite N; first [left; lra|right; lra]. }
  destruct (partition_phase 2 row) as [phi|] eqn:E.
  2:{ unfold partition_phase in E. cbn [Nat.eqb] in E. rewrite Hp in E. discriminate. }
  destruct (phase_partition_one row 2 phi E) as (out & Ho). set (ph := map (fun p => p / 4 - PI / 4) (unwrap phi)) in *.
  destruct (partition_diag_trace 2 [row] [ph] [out] 0 row 1 (fun _ => t) Ho eq_refl ltac:(discriminate) ltac:(lra) M2 M4 Hr) as (pr & Hpr & Lp & T).
  cbn [nth_error] in Hpr. injection Hpr as <-. exists ph. split.
  2:{ split; [exact Lp|]. intros p Hi. apply In_nth_error in Hi as (i & Hi). exact (T i p Hi). }
  rewrite Ho. destruct (partition_rotation _ _ _ _ Ho) as (_ & _ & _ & Hrot). destruct (Hrot 0%nat row eq_refl) as (row' & Hr' & Lr & Hs). cbn [nth_error] in Hr'. injection Hr' as <-.
  cbn [length Nat.sub] in Hs. change (length row) with 2%nat in *.
  assert (V : forall i z p, nth_error row i = Some z -> nth_error ph i = Some p -> nth_error out i = Some (z * Cexpi (- (4 * t) - PI))%C).
  { intros i z p Hz Hpi. rewrite (Hs i z Hz). apply (f_equal Some). apply (f_equal (fun w => (z * w)%C)). apply Cexpi_turns. unfold cell. cbn [nth]. rewrite (nth_error_nth ph i 0 Hpi).
    replace (- (4 * p + PI) - (- (4 * t) - PI)) with (- (4 * (p - t))) by ring. apply turns_opp. exact (T i p Hpi). }
  destruct (nth_error_lt_Some ph 0 ltac:(lia)) as (p0 & P0). destruct (nth_error_lt_Some ph 1 ltac:(lia)) as (p1 & P1).
  pose proof (V 0%nat _ p0 eq_refl P0) as V0. pose proof (V 1%nat _ p1 eq_refl P1) as V1. destruct out as [|o0 [|o1 [|]]]; cbn [length] in Lr; try lia. cbn [nth_error] in V0, V1.
  injection V0 as ->. injection V1 as ->. cbn [map].
  assert (W : forall z : C, (z * Cexpi t * Cexpi (- (4 * t) - PI))%C = (z * Cexpi (- (3 * t) - PI))%C).
  { intros z. replace (z * Cexpi t * Cexpi (- (4 * t) - PI))%C with (z * (Cexpi t * Cexpi (- (4 * t) - PI)))%C by ring. rewrite <- Cexpi_add. do 2 f_equal. ring. }
  rewrite !W. reflexivity.
Qed.

(** a block holding one middle-ring point *)
Lemma Cexpi_atan13 : Cscal (sqrt 10) (Cexpi (atan (1 / 3))) = (3, 1).
Proof.
  unfold Cexpi. rewrite cos_atan, sin_atan. assert (E : sqrt (1 + (1 / 3)²) = sqrt 10 / 3).
  { replace (1 + (1 / 3)²) with (10 / 3 ^ 2) by (unfold Rsqr; field). rewrite sqrt_div by (try lra; apply pow_lt; lra). rewrite sqrt_pow2 by lra. reflexivity. }
  rewrite E. pose proof (sqrt_lt_R0 10 ltac:(lra)). apply C_eq; cbn [fst snd Cscal]; field; lra.
Qed.
Lemma sqrt10_4 : sqrt 10 ^ 4 = 100.
Proof. replace (sqrt 10 ^ 4) with ((sqrt 10 ^ 2) ^ 2) by ring. rewrite sqrt_sq by lra. ring. Qed.
Lemma scal_mul_l r a b : (Cscal r a * b)%C = Cscal r (a * b)%C.
Proof. apply C_eq; cbn; ring. Qed.
Lemma atan13_8 : Cexpi (8 * atan (1 / 3)) = (- (8432 / 10000), 5376 / 10000).
Proof.
  pose proof (f_equal (fun z => Cpow z 8) Cexpi_atan13) as H. cbv beta in H. rewrite Cpow_scal, Cpow_expi in H.
  replace (sqrt 10 ^ 8) with 10000 in H by (replace (sqrt 10 ^ 8) with ((sqrt 10 ^ 4) ^ 2) by ring; rewrite sqrt10_4; ring).
  replace (INR 8) with 8 in H by (cbn; lra). assert (E : Cpow (3, 1) 8 = (- (8432), 5376)) by (cbn [Cpow]; unfold Cmul, C1; cbn [fst snd]; apply C_eq; cbn [fst snd]; ring).
  rewrite E in H. set (w := Cexpi _) in *. destruct w as [a b]. unfold Cscal in H. cbn [fst snd] in H.
  apply pair_equal_spec in H as (H1 & H2). apply C_eq; cbn [fst snd]; lra.
Qed.
Lemma middle_block : Cexpi (block_phase [((3, 1), false)]) = (- (8432 / 10000), 5376 / 10000).
Proof.
  unfold block_phase. cbn [map snd filter negb fst]. replace (Csum [C0]) with C0 by (cbn; apply C_eq; cbn; ring).
  assert (P1 : Cpow ((3, 1) * Cexpi dphi)%C 4 = (8432 / 100, - (5376 / 100))).
  { rewrite <- Cexpi_atan13, scal_mul_l, <- Cexpi_add, Cpow_scal, Cpow_expi, sqrt10_4. replace (INR 4 * (atan (1 / 3) + dphi)) with (8 * atan (1 / 3) + PI) by (unfold dphi; cbn [INR]; lra).
    rewrite Cexpi_add, atan13_8. unfold Cexpi. rewrite cos_PI, sin_PI. apply C_eq; cbn; lra. }
  assert (P2 : Cpow ((3, 1) * Cexpi (- dphi))%C 4 = (- (100), 0)).
  { rewrite <- Cexpi_atan13, scal_mul_l, <- Cexpi_add, Cpow_scal, Cpow_expi, sqrt10_4. replace (INR 4 * (atan (1 / 3) + - dphi)) with (- PI) by (unfold dphi; cbn [INR]; lra).
    unfold Cexpi. rewrite cos_neg, sin_neg, cos_PI, sin_PI. apply C_eq; cbn; lra. }
  rewrite P1, P2. unfold Cmin, Clex. cbn [fst snd C0 Csub Cadd Copp]. destruct (Rlt_dec _ _); [lra|]. destruct (Req_EM_T _ _); [lra|].
  match goal with |- Cexpi (Carg ?w) = _ => assert (E : w = Cscal 100 (Cexpi (8 * atan (1 / 3)))) end.
  { rewrite atan13_8. apply C_eq; cbn; lra. }
  rewrite E, <- atan13_8. apply Cexpi_turns. apply Carg_scal_expi. lra.
Qed.
Lemma partition_middle_wrong : exists out ph p, phase_partition_16qam [[(1, 1); (3, 1); (1, 3); (3, 3)]] 1 = Ok (out, [ph]) /\ nth_error ph 1 = Some p /\ ~ turns (4 * p).
Proof.
  set (row := [(1, 1); (3, 1); (1, 3); (3, 3)]).
  assert (M2 : moment2 row = 10 * 1 ^ 2) by (unfold row, moment2, Rmean, Cnorm2; cbn; lra).
  assert (M4 : moment4 row = 132 * 1 ^ 4) by (unfold row, moment4, Rmean, Cnorm2; cbn; lra).
  destruct (partition_ideal row 1) as (mask & Hm & Fm); try assumption; try discriminate; try lra.
  { intros z [<-|[<-|[<-|[<-|[]]]]]; unfold Cnorm2; cbn; lra. }
  destruct (partition_phase 1 row) as [phi|] eqn:E; [|unfold partition_phase in E; cbn [Nat.eqb] in E; rewrite Hm in E; discriminate].
  destruct (phase_partition_one row 1 phi E) as (out & Ho). destruct (partition_phase_nth 1 row phi E) as (mask' & Hm' & _ & L & Hn). rewrite Hm in Hm'. injection Hm' as <-.
  change (length row) with 4%nat in *. destruct (nth_error_lt_Some (unwrap phi) 1) as (u & Hu); [rewrite unwrap_length; lia|].
  exists [out], (map (fun p => p / 4 - PI / 4) (unwrap phi)), (u / 4 - PI / 4). split; [exact Ho|]. split; [rewrite nth_error_map, Hu; reflexivity|]. intros Ht.
  destruct (unwrap_nth phi 1 u Hu) as (x & Hx & Tx). rewrite (Hn 1%nat ltac:(lia)) in Hx.
  inversion Fm as [|z0 b0 l0 m0 F0 Fm1]; subst. inversion Fm1 as [|z1 b1 l1 m1 F1 Fm2]; subst.
  destruct b1; [exfalso; apply (proj1 F1 eq_refl); unfold Cnorm2; cbn; lra|].
  apply Cexpi_turns in Tx. assert (Cexpi u = Cexpi PI) as Eu by (apply Cexpi_turns; replace (u - PI) with (4 * (u / 4 - PI / 4)) by field; exact Ht).
  assert (Ex : block_phase [((3, 1), false)] = x) by (injection Hx as Hx; exact Hx). rewrite Eu, <- Ex in Tx. rewrite middle_block in Tx. unfold Cexpi in Tx. rewrite cos_PI, sin_PI in Tx. injection Tx as T1 T2. lra.
Qed.
