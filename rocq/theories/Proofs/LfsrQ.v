From Coq Require Import List NArith Arith Bool Lia ZArith ZifyBool ZifyNat ZifyN.
From Verif Require Import Common.Py Common.ListX Model.Prbs Model.Lfsr Spec.BitSeq Spec.LfsrS Proofs.PrbsP Proofs.PrbsQ Proofs.LfsrP.
Import ListNotations.
Local Open Scope nat_scope.

(** ** the four polynomials: reversing the output gives an external-XOR sequence *)
Section Rev.
Variable order : nat.
Hypothesis Ho : In order prbs_orders.
Variable s : N.
Hypothesis Hs : (0 < s < 2 ^ N.of_nat order)%N.
Let n := N.of_nat order.
Let mask := prbs_mask order.
Let o := gout mask n s.
Let t := snd (prbs_taps order).
Let P := 2 ^ order - 1.

Lemma mask_log2 : N.log2 mask = n.
Proof. unfold mask, n. destruct Ho as [<-|[<-|[<-|[<-|[]]]]]; reflexivity. Qed.
Lemma order_ge1 : (1 <= n)%N.
Proof. unfold n. destruct Ho as [<-|[<-|[<-|[<-|[]]]]]; cbn; lia. Qed.
Lemma taps_rng : fst (prbs_taps order) = order /\ 1 <= t < order.
Proof. unfold t. destruct Ho as [<-|[<-|[<-|[<-|[]]]]]; cbn; lia. Qed.

Lemma gf2_sum_single f m k : k < m -> (forall i, i < m -> i <> k -> f i = false) -> gf2_sum f m = f k.
Proof.
  induction m as [|m IH]; intros Hk H; [lia|]. cbn [gf2_sum]. destruct (Nat.eq_dec k m) as [->|Hkm].
  - assert (E : gf2_sum f m = false).
    { assert (K : forall p, p <= m -> gf2_sum f p = false).
      { induction p as [|p IHp]; intros Hp; [reflexivity|]. cbn [gf2_sum]. rewrite IHp, H by lia. reflexivity. }
      now apply K. }
    rewrite E. now destruct (f m).
  - rewrite IH by (try lia; intros; apply H; lia). rewrite (H m) by lia. now destruct (f k).
Qed.
Lemma gf2_sum_xor f g m : gf2_sum (fun i => xorb (f i) (g i)) m = xorb (gf2_sum f m) (gf2_sum g m).
Proof.
  induction m as [|m IH]; [reflexivity|]. cbn [gf2_sum]. rewrite IH.
  destruct (gf2_sum f m), (gf2_sum g m), (f m), (g m); reflexivity.
Qed.
Lemma gf2_sum_ext f g m : (forall i, i < m -> f i = g i) -> gf2_sum f m = gf2_sum g m.
Proof. induction m as [|m IH]; intros H; [reflexivity|]. cbn [gf2_sum]. rewrite IH, H by (intros; try apply H; lia). reflexivity. Qed.

Lemma mask_bits k : k < order -> N.testbit mask (N.of_nat k) = xorb (k =? 0) (k =? t).
Proof.
  intros Hk. unfold mask, t.
  assert (K : forallb (fun k => Bool.eqb (N.testbit (prbs_mask order) (N.of_nat k)) (xorb (k =? 0) (k =? snd (prbs_taps order)))) (seq 0 order) = true).
  { destruct Ho as [<-|[<-|[<-|[<-|[]]]]]; vm_compute; reflexivity. }
  rewrite forallb_forall in K. apply eqb_prop, K. apply in_seq. lia.
Qed.
Lemma o_rec i : o (i + order) = xorb (o i) (o (i + t)).
Proof.
  pose proof (gout_rec mask n order_ge1 mask_log2 s i ltac:(apply Hs)) as E.
  unfold n in E at 2 4. rewrite Nat2N.id in E. fold o in E. rewrite E.
  destruct taps_rng as [_ Ht].
  rewrite (gf2_sum_ext _ (fun k => xorb ((k =? 0) && o (i + k)) ((k =? t) && o (i + k)))).
  2:{ intros k Hk. rewrite mask_bits by assumption. destruct (k =? 0), (k =? t), (o (i + k)); reflexivity. }
  rewrite gf2_sum_xor. f_equal.
  - rewrite (gf2_sum_single (fun k => (k =? 0) && o (i + k)) order 0); [now rewrite Nat.add_0_r|lia|].
    intros k _ Hk. now destruct (Nat.eqb_spec k 0).
  - rewrite (gf2_sum_single (fun k => (k =? t) && o (i + k)) order t); [now rewrite Nat.eqb_refl|lia|].
    intros k _ Hk. now destruct (Nat.eqb_spec k t).
Qed.

(** the reversed outputs o (T-1), ..., o 0 *)
Section Win.
Variable T : nat.
Hypothesis HT : order <= T.
Let y (k : nat) : bool := o (T - 1 - k).
Definition rseed : N := val (map y (seq 0 order)).
Lemma rseed_lt : (rseed < 2 ^ n)%N.
Proof.
  apply lt_pow2_bits. intros j Hj. unfold rseed. rewrite <- (N2Nat.id j), val_bit. apply nth_overflow.
  rewrite map_length, seq_length. unfold n in Hj. lia.
Qed.
Lemma rev_out : exists out', make_prbs_extXOR n (T - order) (SeedInt rseed) = Ok out' /\ length out' = T - order /\
  forall k, order <= k < T -> nth_error out' (k - order) = Some (y k).
Proof.
  destruct (c08 order (T - order) rseed Ho rseed_lt) as (out' & E & Len & R & _).
  exists out'. split; [exact E|]. split; [exact Len|].
  assert (K : forall k, k < T -> nth_error (seeded order rseed out') k = Some (y k)).
  { intros k. induction k as [k IH] using lt_wf_ind. intros Hk.
    destruct (le_lt_dec order k) as [H|H].
    - destruct (R k ltac:(lia)) as (R1 & R2 & a & b & Ea & Eb & Ek). rewrite Ek. f_equal.
      destruct taps_rng as [F Ht]. rewrite F in *. fold t in R2, Eb.
      rewrite IH in Ea by lia. rewrite IH in Eb by lia. injection Ea as <-. injection Eb as <-.
      unfold y. pose proof (o_rec (T - 1 - k)) as Q.
      replace (T - 1 - (k - order)) with (T - 1 - k + order) by lia.
      replace (T - 1 - (k - t)) with (T - 1 - k + t) by lia.
      rewrite Q. destruct (o (T - 1 - k)), (o (T - 1 - k + t)); reflexivity.
    - unfold seeded. rewrite nth_error_app1 by (rewrite map_length, seq_length; lia).
      rewrite nth_error_map_seq by lia. cbn [Nat.add]. f_equal. unfold rseed. rewrite val_bit.
      rewrite (nth_error_nth _ k _ (x := y k)); [reflexivity|]. rewrite nth_error_map_seq by lia. reflexivity. }
  intros k Hk. specialize (K k ltac:(lia)). unfold seeded in K.
  rewrite nth_error_app2 in K by (rewrite map_length, seq_length; lia).
  rewrite map_length, seq_length in K. exact K.
Qed.
Lemma rseed_pos : 2 * order <= T -> (0 < rseed)%N.
Proof.
  intros H2. destruct (N.eq_0_gt_0_cases rseed) as [Z|Z]; [exfalso|exact Z].
  destruct rev_out as (out' & E & Len & R). rewrite Z in E. unfold n in E. rewrite c09_zero in E by exact Ho.
  injection E as <-.
  assert (K : forall i, i < order -> o i = false).
  { intros i Hi. specialize (R (T - 1 - i) ltac:(lia)).
    rewrite (nth_error_nth' _ false), nth_repeat in R by (rewrite repeat_length; lia).
    unfold y in R. replace (T - 1 - (T - 1 - i)) with i in R by lia. congruence. }
  assert (s = 0%N); [|lia].
  apply (gst_inj_out mask n order_ge1 mask_log2).
  - apply Hs.
  - fold n in Hs. lia.
  - intros i Hi. unfold n in Hi. rewrite Nat2N.id in Hi. fold o. rewrite K by assumption.
    unfold gout. rewrite (gst_zero mask n order_ge1 mask_log2), N.bits_0. reflexivity.
Qed.
End Win.

Lemma o_period i : o (i + P) = o i.
Proof.
  set (T := i + P + 1 + 2 * order).
  pose proof (rseed_pos T ltac:(unfold T; lia) ltac:(unfold T; lia)) as Z. pose proof (rseed_lt T ltac:(unfold T; lia)) as ZL.
  destruct (rev_out T ltac:(unfold T; lia)) as (out' & E & Len & R).
  destruct (c09 order (T - order) (rseed T) out' Ho (conj Z ZL) E) as (Q & _).
  fold P in Q.
  set (k := T - 1 - (i + P)).
  pose proof (R k ltac:(unfold k, T; lia)) as R1. pose proof (R (k + P) ltac:(unfold k, T; lia)) as R2.
  specialize (Q (k - order) ltac:(unfold k, T; lia)). replace (k - order + P) with (k + P - order) in Q by (unfold k, T; lia).
  rewrite R1, R2 in Q. unfold k in Q.
  replace (T - 1 - (T - 1 - (i + P))) with (i + P) in Q by (unfold T; lia).
  replace (T - 1 - (T - 1 - (i + P) + P)) with i in Q by (unfold T; lia). congruence.
Qed.
Lemma o_periods i q : o (i + q * P) = o i.
Proof.
  induction q as [|q IH]; [now rewrite Nat.add_0_r|].
  replace (i + S q * P) with (i + q * P + P) by (cbn [Nat.mul]; lia). now rewrite o_period.
Qed.

Lemma window_nth {A} (l : list A) k m j : j < m -> nth_error (window l k m) j = nth_error l (k + j).
Proof. intros H. unfold window. rewrite nth_error_firstn_lt by assumption. apply nth_error_skipn'. Qed.
Lemma window_len {A} (l : list A) k m : k + m <= length l -> length (window l k m) = m.
Proof. intros H. unfold window. rewrite firstn_length, skipn_length. lia. Qed.

Lemma gst_period i j : i <= j -> (gst mask n s i = gst mask n s j <-> Nat.divide P (j - i)).
Proof.
  intros Hij. split.
  - intros E. destruct (Nat.eq_dec i j) as [->|Hne]; [rewrite Nat.sub_diag; apply Nat.divide_0_r|].
    assert (W : forall k, o (i + k) = o (j + k)).
    { intros k. unfold o. rewrite !gout_add, E. reflexivity. }
    set (T := j + 2 * order).
    pose proof (rseed_pos T ltac:(unfold T; lia) ltac:(unfold T; lia)) as Z. pose proof (rseed_lt T ltac:(unfold T; lia)) as ZL.
    destruct (rev_out T ltac:(unfold T; lia)) as (out' & E' & Len & R).
    destruct (c09 order (T - order) (rseed T) out' Ho (conj Z ZL) E') as (_ & Q & _).
    fold P in Q. apply (Q (j - i) 0); [lia|unfold T; lia|]. cbn [Nat.add].
    apply nth_error_ext_lt; [rewrite !window_len; unfold T in *; lia|].
    intros k Hk. rewrite window_len in Hk by (unfold T in *; lia). rewrite !window_nth by assumption.
    pose proof (R (order + k) ltac:(unfold T; lia)) as R1.
    pose proof (R (order + (j - i) + k) ltac:(unfold T; lia)) as R2.
    replace (order + k - order) with (0 + k) in R1 by lia.
    replace (order + (j - i) + k - order) with (j - i + k) in R2 by lia. rewrite R1, R2. f_equal.
    replace (T - 1 - (order + k)) with (j + (order - 1 - k)) by (unfold T; lia).
    replace (T - 1 - (order + (j - i) + k)) with (i + (order - 1 - k)) by (unfold T; lia). apply W.
  - intros [q E]. apply (gst_inj_out mask n order_ge1 mask_log2);
      try (apply (gst_lt mask n order_ge1 mask_log2); apply Hs).
    intros k _. rewrite <- !gout_add. fold o. replace (j + k) with (i + k + q * P) by lia. now rewrite o_periods.
Qed.
End Rev.

Lemma lfsr_int_period order L s out i j xi xj si sj : In order prbs_orders -> (0 < s < 2 ^ N.of_nat order)%N ->
  lfsr_int s (prbs_mask order) L = Ok out -> i <= j ->
  nth_error out i = Some (xi, si) -> nth_error out j = Some (xj, sj) ->
  (si = sj <-> Nat.divide (2 ^ order - 1) (j - i)).
Proof.
  intros Ho Hs E Hij Ei Ej. pose proof (mask_log2 order Ho s Hs) as ML. pose proof (order_ge1 order Ho s Hs) as OG.
  assert (M2 : (2 <= prbs_mask order)%N) by (destruct Ho as [<-|[<-|[<-|[<-|[]]]]]; cbn; lia).
  rewrite lfsr_int_ok in E by exact M2. rewrite ML in E.
  assert (Eo : out = gal_run (prbs_mask order) (N.of_nat order) s L) by congruence. subst out.
  assert (Hj : j < L).
  { rewrite <- (gal_run_length (prbs_mask order) (N.of_nat order) L s). apply nth_error_Some. congruence. }
  rewrite (gal_run_nth _ _ OG ML) in Ei by (try apply Hs; lia). rewrite (gal_run_nth _ _ OG ML) in Ej by (try apply Hs; lia).
  replace si with (gst (prbs_mask order) (N.of_nat order) s (S i)) by congruence.
  replace sj with (gst (prbs_mask order) (N.of_nat order) s (S j)) by congruence.
  replace (j - i) with (S j - S i) by lia. apply gst_period; try assumption. lia.
Qed.

(** ** the external-XOR generator with any taps *)
Lemma land_bit sr k : negb (N.land sr (N.shiftl 1 k) =? 0)%N = N.testbit sr k.
Proof.
  rewrite N.shiftl_1_l. destruct (N.testbit sr k) eqn:E.
  - destruct (N.eqb_spec (N.land sr (2 ^ k)) 0) as [Z|Z]; [exfalso|reflexivity].
    assert (X : N.testbit (N.land sr (2 ^ k)) k = false) by (rewrite Z; apply N.bits_0).
    rewrite N.land_spec, E, N.pow2_bits_true in X. discriminate.
  - destruct (N.eqb_spec (N.land sr (2 ^ k)) 0) as [Z|Z]; [reflexivity|exfalso]. apply Z.
    apply N.bits_inj. intros j. rewrite N.land_spec, N.bits_0. destruct (N.eq_dec j k) as [->|H]; [now rewrite E|].
    rewrite N.pow2_bits_false by lia. apply andb_false_r.
Qed.
Lemma fib_xor_ok n taps sr b : Forall (fun t => (t <= n)%N) taps ->
  fib_xor n taps sr (N.b2n b) = Ok (N.b2n (xorb b (gf2_list (map (fun t => N.testbit sr (n - t)) taps)))).
Proof.
  revert b. induction taps as [|t taps IH]; intros b H; cbn [fib_xor map gf2_list fold_right].
  - now rewrite xorb_false_r.
  - inversion H; subst. destruct (N.ltb_spec n t); [lia|]. rewrite land_bit.
    replace (if N.testbit sr (n - t) then N.lxor (N.b2n b) 1 else N.b2n b) with (N.b2n (xorb b (N.testbit sr (n - t))))
      by (destruct b, (N.testbit sr (n - t)); reflexivity).
    rewrite IH by assumption. do 2 f_equal. rewrite xorb_assoc. reflexivity.
Qed.
Definition fbit (n : N) (taps : list N) (sr : N) : bool := gf2_list (map (fun t => N.testbit sr (n - t)) taps).
Definition fnext (n : N) (taps : list N) (sr : N) : N := (N.shiftl (N.b2n (fbit n taps sr)) (n - 1) + N.shiftr sr 1)%N.
Lemma fib_turn_ok n taps sr : (1 <= n)%N -> Forall (fun t => (t <= n)%N) taps ->
  fib_turn n taps sr = Ok (N.b2n (fbit n taps sr), fnext n taps sr).
Proof.
  intros Hn H. unfold fib_turn. change 0%N with (N.b2n false) at 1. rewrite fib_xor_ok by assumption.
  cbn [bind]. destruct (N.eqb_spec n 0); [lia|]. rewrite xorb_false_l. reflexivity.
Qed.
Lemma fnext_bits n taps sr : (1 <= n)%N -> (sr < 2 ^ n)%N ->
  (fnext n taps sr < 2 ^ n)%N /\
  forall j, (j < n)%N -> N.testbit (fnext n taps sr) j = if (j =? n - 1)%N then fbit n taps sr else N.testbit sr (j + 1).
Proof.
  intros Hn Hs. unfold fnext. set (b := fbit n taps sr).
  assert (E : (N.shiftl (N.b2n b) (n - 1) + N.shiftr sr 1 = N.lxor (N.shiftl (N.b2n b) (n - 1)) (N.shiftr sr 1))%N).
  { apply N.add_nocarry_lxor. apply N.bits_inj. intros j. rewrite N.land_spec, N.bits_0, N.shiftr_spec by lia.
    destruct (N.lt_ge_cases j (n - 1)) as [H|H].
    - rewrite N.shiftl_spec_low by assumption. reflexivity.
    - rewrite (testbit_high sr n (j + 1)) by (try assumption; lia). apply andb_false_r. }
  rewrite E.
  assert (B : forall j, N.testbit (N.lxor (N.shiftl (N.b2n b) (n - 1)) (N.shiftr sr 1)) j
     = if (j =? n - 1)%N then b else N.testbit sr (j + 1)).
  { intros j. rewrite N.lxor_spec, N.shiftr_spec by lia. destruct (N.eqb_spec j (n - 1)) as [->|H].
    - rewrite (testbit_high sr n) by (try assumption; lia). rewrite xorb_false_r.
      rewrite N.shiftl_spec_high' by lia. rewrite N.sub_diag. now destruct b.
    - destruct (N.lt_ge_cases j (n - 1)) as [H1|H1].
      + rewrite N.shiftl_spec_low by assumption. apply xorb_false_l.
      + rewrite N.shiftl_spec_high' by lia. replace (N.testbit (N.b2n b) (j - (n - 1))) with false; [apply xorb_false_l|].
        destruct b; cbn [N.b2n]; [|now rewrite N.bits_0]. symmetry. change 1%N with (2 ^ 0)%N. apply N.pow2_bits_false. lia. }
  split; [|intros j _; apply B].
  apply lt_pow2_bits. intros j Hj. rewrite B. destruct (N.eqb_spec j (n - 1)); [lia|]. apply (testbit_high sr n); [assumption|lia].
Qed.

Definition fst_at (n : N) (taps : list N) (s : N) (i : nat) : N := Nat.iter i (fnext n taps) s.
Lemma fst_at_lt n taps s i : (1 <= n)%N -> (s < 2 ^ n)%N -> (fst_at n taps s i < 2 ^ n)%N.
Proof. intros Hn Hs. induction i as [|i IH]; [exact Hs|]. now apply fnext_bits. Qed.
Lemma fst_at_shift n taps s i : fst_at n taps s (S i) = fst_at n taps (fnext n taps s) i.
Proof.
  induction i as [|i IH]; [reflexivity|].
  change (fst_at n taps s (S (S i))) with (fnext n taps (fst_at n taps s (S i))). rewrite IH. reflexivity.
Qed.
Lemma ext_gen_ok n taps s L : (1 <= n)%N -> Forall (fun t => (t <= n)%N) taps ->
  exists out, lfsr_ext_gen s taps n L = Ok out /\ length out = L /\
    forall i, i < L -> nth_error out i = Some (N.b2n (fbit n taps (fst_at n taps s i)), fst_at n taps s (S i)).
Proof.
  intros Hn H. revert s. induction L as [|L IH]; intros s.
  - exists []. split; [reflexivity|]. split; [reflexivity|]. intros; lia.
  - destruct (IH (fnext n taps s)) as (out & E & Len & Q).
    eexists. cbn [lfsr_ext_gen]. rewrite fib_turn_ok by assumption. cbn [bind snd]. rewrite E. cbn [bind].
    split; [reflexivity|]. split; [cbn [length]; now rewrite Len|].
    intros [|i] Hi; [reflexivity|]. cbn [nth_error]. rewrite Q by lia. rewrite <- !fst_at_shift. reflexivity.
Qed.

Lemma lfsr_ext_register order taps (s : N) L : 1 <= order -> (s < 2 ^ N.of_nat order)%N ->
  Forall (fun t => (1 <= t <= N.of_nat order)%N) taps ->
  exists out, lfsr_ext_gen s taps (N.of_nat order) L = Ok out /\ length out = L /\
    let l := seeded order s (map (fun p => negb (fst p =? 0)%N) out) in
    forall i x st, nth_error out i = Some (x, st) ->
      (x = 0 \/ x = 1)%N /\ (st < 2 ^ N.of_nat order)%N /\
      nth (order + i) l false = gf2_list (map (fun t => nth (order + i - N.to_nat t) l false) taps) /\
      (forall j, j < order -> N.testbit st (N.of_nat j) = nth (i + 1 + j) l false).
Proof.
  intros Hn Hs Ht. set (n := N.of_nat order) in *. assert (Hn' : (1 <= n)%N) by (unfold n; lia).
  assert (Ht' : Forall (fun t => (t <= n)%N) taps) by (eapply Forall_impl; [|exact Ht]; cbn; intros; lia).
  destruct (ext_gen_ok n taps s L Hn' Ht') as (out & E & Len & Q).
  exists out. split; [exact E|]. split; [exact Len|]. intros l.
  set (f := fbit n taps).
  assert (Ll : forall i, i < L -> nth (order + i) l false = f (fst_at n taps s i)).
  { intros i Hi. unfold l, seeded. rewrite app_nth2 by (rewrite map_length, seq_length; lia).
    rewrite map_length, seq_length. replace (order + i - order) with i by lia.
    apply nth_error_nth. rewrite nth_error_map, Q by assumption. cbn [option_map fst].
    f_equal. fold f. now destruct (f _). }
  assert (Lw : forall i j, i <= L -> j < order -> N.testbit (fst_at n taps s i) (N.of_nat j) = nth (i + j) l false).
  { intros i. induction i as [|i IH]; intros j Hi Hj.
    - cbn [fst_at Nat.iter Nat.add]. symmetry. apply nth_error_nth. unfold l, seeded.
      rewrite nth_error_app1 by (rewrite map_length, seq_length; lia). now rewrite nth_error_map_seq.
    - change (fst_at n taps s (S i)) with (fnext n taps (fst_at n taps s i)).
      destruct (fnext_bits n taps (fst_at n taps s i) Hn' (fst_at_lt _ _ _ _ Hn' Hs)) as (_ & B).
      rewrite B by (unfold n; lia). destruct (N.eqb_spec (N.of_nat j) (n - 1)) as [Ej|Ej].
      + replace (S i + j) with (order + i) by (unfold n in Ej; lia). rewrite Ll by lia. reflexivity.
      + replace (N.of_nat j + 1)%N with (N.of_nat (S j)) by lia. rewrite IH by (unfold n in Ej; lia). f_equal. lia. }
  intros i x st Ho. assert (Hi : i < L) by (rewrite <- Len; apply nth_error_Some; congruence).
  rewrite Q in Ho by assumption.
  assert (Ex : x = N.b2n (fbit n taps (fst_at n taps s i))) by congruence.
  assert (Est : st = fst_at n taps s (S i)) by congruence. clear Ho. subst x st.
  split; [destruct (fbit _ _ _); cbn; auto|]. split; [now apply fst_at_lt|]. split.
  - rewrite Ll by assumption. unfold f, fbit. f_equal. apply map_ext_in. intros t Hin.
    rewrite Forall_forall in Ht. specialize (Ht t Hin).
    replace (n - t)%N with (N.of_nat (order - N.to_nat t)) by (unfold n; lia).
    rewrite Lw by lia. f_equal. lia.
  - intros j Hj. rewrite Lw by lia. f_equal. lia.
Qed.

Lemma gf2_app l1 l2 : gf2_list (l1 ++ l2) = xorb (gf2_list l1) (gf2_list l2).
Proof.
  induction l1 as [|a l1 IH]; cbn [app]; [now rewrite xorb_false_l|].
  change (gf2_list (a :: l1 ++ l2)) with (xorb a (gf2_list (l1 ++ l2))). rewrite IH.
  change (gf2_list (a :: l1)) with (xorb a (gf2_list l1)). now rewrite xorb_assoc.
Qed.
Lemma fnext_inj n taps a b : (1 <= n)%N -> Forall (fun t => (1 <= t <= n)%N) taps -> NoDup taps -> In n taps ->
  (a < 2 ^ n)%N -> (b < 2 ^ n)%N -> fnext n taps a = fnext n taps b -> a = b.
Proof.
  intros Hn Ht ND Hin Ha Hb E.
  destruct (fnext_bits n taps a Hn Ha) as (_ & A). destruct (fnext_bits n taps b Hn Hb) as (_ & B).
  assert (Hup : forall j, (1 <= j)%N -> N.testbit a j = N.testbit b j).
  { intros j Hj. destruct (N.lt_ge_cases j n) as [H|H]; [|now rewrite !(testbit_high _ n)].
    pose proof (A (j - 1)%N ltac:(lia)) as A1. pose proof (B (j - 1)%N ltac:(lia)) as B1. rewrite E, B1 in A1.
    destruct (N.eqb_spec (j - 1) (n - 1)); [lia|]. replace (j - 1 + 1)%N with j in A1 by lia. congruence. }
  assert (Hf : fbit n taps a = fbit n taps b).
  { pose proof (A (n - 1)%N ltac:(lia)) as A1. pose proof (B (n - 1)%N ltac:(lia)) as B1. rewrite E, B1 in A1.
    rewrite N.eqb_refl in A1. congruence. }
  apply N.bits_inj. intros j. destruct (N.eq_dec j 0) as [->|Hj]; [|apply Hup; lia].
  apply in_split in Hin. destruct Hin as (l1 & l2 & ->). unfold fbit in Hf.
  rewrite !map_app, !map_cons in Hf.
  rewrite N.sub_diag in Hf.
  assert (K : forall l, incl l (l1 ++ l2) -> map (fun t => N.testbit a (n - t)) l = map (fun t => N.testbit b (n - t)) l).
  { intros l Hl. apply map_ext_in. intros t Hin. apply Hup.
    assert (H1 : In t (l1 ++ n :: l2)).
    { apply Hl in Hin. apply in_app_or in Hin. apply in_or_app. destruct Hin; [now left|right; now right]. }
    rewrite Forall_forall in Ht. specialize (Ht t H1).
    assert (t <> n); [|lia]. intros ->. apply NoDup_remove_2 in ND. apply ND. now apply Hl. }
  rewrite (K l1), (K l2) in Hf; [|intros z Hz; apply in_or_app; now right|intros z Hz; apply in_or_app; now left].
  rewrite !gf2_app in Hf.
  change (fun x y => gf2_list (x :: y)) with (fun x y => xorb x (gf2_list y)) in Hf.
  cbn [gf2_list fold_right] in Hf. fold gf2_list in Hf.
  destruct (gf2_list _), (N.testbit a 0), (N.testbit b 0); cbn in Hf; try reflexivity;
    destruct (fold_right _ _ _); cbn in Hf; try discriminate; reflexivity.
Qed.
Lemma lfsr_ext_reversible order taps (a b : N) L i outa outb x y st : 1 <= order ->
  Forall (fun t => (1 <= t <= N.of_nat order)%N) taps -> NoDup taps -> In (N.of_nat order) taps ->
  (a < 2 ^ N.of_nat order)%N -> (b < 2 ^ N.of_nat order)%N ->
  lfsr_ext_gen a taps (N.of_nat order) L = Ok outa -> lfsr_ext_gen b taps (N.of_nat order) L = Ok outb ->
  nth_error outa i = Some (x, st) -> nth_error outb i = Some (y, st) -> a = b.
Proof.
  intros Hn Ht ND Hin Ha Hb Ea Eb Na Nb. set (n := N.of_nat order) in *. assert (Hn' : (1 <= n)%N) by (unfold n; lia).
  assert (Ht' : Forall (fun t => (t <= n)%N) taps) by (eapply Forall_impl; [|exact Ht]; cbn; intros; lia).
  destruct (ext_gen_ok n taps a L Hn' Ht') as (o1 & E1 & L1 & Q1).
  destruct (ext_gen_ok n taps b L Hn' Ht') as (o2 & E2 & L2 & Q2).
  assert (o1 = outa) by congruence. assert (o2 = outb) by congruence. subst o1 o2.
  assert (Hi : i < L) by (rewrite <- L1; apply nth_error_Some; congruence).
  rewrite Q1 in Na by assumption. rewrite Q2 in Nb by assumption.
  assert (E : fst_at n taps a (S i) = fst_at n taps b (S i)) by congruence. revert E. generalize (S i). clear - Hn' Ht ND Hin Ha Hb.
  intros k. induction k as [|k IH]; intros E; [exact E|]. apply IH.
  apply (fnext_inj n taps) in E; try assumption; now apply fst_at_lt.
Qed.
Lemma fib_xor_err n taps sr x : Exists (fun t => (n < t)%N) taps -> fib_xor n taps sr x = Err ValueError.
Proof.
  intros H. revert x. induction H as [t taps Ht|t taps H IH]; intros x; cbn [fib_xor].
  - destruct (N.ltb_spec n t); [reflexivity|lia].
  - destruct (N.ltb_spec n t); [reflexivity|apply IH].
Qed.
Lemma lfsr_ext_long_tap s taps n L : Exists (fun t => (n < t)%N) taps -> lfsr_ext_gen s taps n (S L) = Err ValueError.
Proof. intros H. cbn [lfsr_ext_gen]. unfold fib_turn. rewrite fib_xor_err by assumption. reflexivity. Qed.
