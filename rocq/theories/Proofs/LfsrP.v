From Coq Require Import List NArith Arith Bool Lia ZArith ZifyBool ZifyNat ZifyN.
From Verif Require Import Common.Py Common.ListX Model.Prbs Model.Lfsr Spec.BitSeq Spec.LfsrS Proofs.PrbsP Proofs.PrbsQ.
Import ListNotations.
Local Open Scope nat_scope.

Lemma lt_pow2_bits x n : (forall j, (n <= j)%N -> N.testbit x j = false) -> (x < 2 ^ n)%N.
Proof.
  intros H. assert (E : x = (x mod 2 ^ n)%N).
  { apply N.bits_inj. intros j. destruct (N.lt_ge_cases j n) as [H1|H1].
    - now rewrite N.mod_pow2_bits_low.
    - rewrite N.mod_pow2_bits_high by assumption. now apply H. }
  rewrite E. apply N.mod_lt, N.pow_nonzero. lia.
Qed.

Section Gal.
Variables mask n : N.
Hypothesis Hn : (1 <= n)%N.
Hypothesis Hm : N.log2 mask = n.
Lemma mask_pos : (0 < mask)%N.
Proof. destruct (N.eq_0_gt_0_cases mask) as [E|E]; [|exact E]. rewrite E in Hm. cbn in Hm. lia. Qed.
Lemma mask_top : N.testbit mask n = true.
Proof. rewrite <- Hm. apply N.bit_log2. pose proof mask_pos. lia. Qed.
Lemma mask_above j : (n < j)%N -> N.testbit mask j = false.
Proof. intros H. apply N.bits_above_log2. lia. Qed.

Lemma gal_turn_spec s : (s < 2 ^ n)%N ->
  fst (gal_turn mask n s) = N.b2n (N.testbit s (n - 1)) /\
  snd (gal_turn mask n s) = N.lxor (2 * s) (fst (gal_turn mask n s) * mask) /\
  (snd (gal_turn mask n s) < 2 ^ n)%N /\
  forall j, (j < n)%N -> N.testbit (snd (gal_turn mask n s)) j =
     xorb (if (j =? 0)%N then false else N.testbit s (j - 1)) (N.testbit s (n - 1) && N.testbit mask j).
Proof.
  intros Hs. unfold gal_turn. cbn [fst snd].
  assert (Ex : N.shiftr (N.shiftl s 1) n = N.b2n (N.testbit s (n - 1))).
  { apply N.bits_inj. intros j. rewrite N.shiftr_spec by lia. rewrite N.shiftl_spec_high' by lia.
    destruct (N.eq_dec j 0) as [->|H].
    - rewrite N.add_0_l. destruct (N.testbit s (n - 1)); reflexivity.
    - rewrite (testbit_high s n) by (try assumption; lia).
      destruct (N.testbit s (n - 1)); cbn [N.b2n]; [|now rewrite N.bits_0].
      symmetry. change 1%N with (2 ^ 0)%N. apply N.pow2_bits_false. lia. }
  rewrite Ex.
  assert (Est : (if negb (N.b2n (N.testbit s (n - 1)) =? 0)%N then N.lxor (N.shiftl s 1) mask else N.shiftl s 1)
     = N.lxor (2 * s) (N.b2n (N.testbit s (n - 1)) * mask)).
  { rewrite N.shiftl_mul_pow2, N.pow_1_r, (N.mul_comm s 2).
    destruct (N.testbit s (n - 1)); cbn [N.b2n N.eqb negb].
    - rewrite N.mul_1_l. reflexivity.
    - change (0 * mask)%N with 0%N. now rewrite N.lxor_0_r. }
  rewrite Est.
  assert (Hbit : forall j, N.testbit (N.lxor (2 * s) (N.b2n (N.testbit s (n - 1)) * mask)) j
     = xorb (if (j =? 0)%N then false else N.testbit s (j - 1)) (N.testbit s (n - 1) && N.testbit mask j)).
  { intros j. rewrite N.lxor_spec. f_equal.
    - destruct (N.eqb_spec j 0) as [->|H]; [apply N.testbit_even_0|].
      replace j with (N.succ (j - 1)) at 1 by lia. apply N.testbit_even_succ. lia.
    - destruct (N.testbit s (n - 1)); cbn [N.b2n andb]; [now rewrite N.mul_1_l|apply N.bits_0]. }
  split; [reflexivity|]. split; [reflexivity|]. split.
  - apply lt_pow2_bits. intros j H. rewrite Hbit. destruct (N.eqb_spec j 0); [lia|].
    destruct (N.eq_dec j n) as [->|H1].
    + rewrite mask_top, andb_true_r. apply xorb_nilpotent.
    + rewrite mask_above, andb_false_r by lia. rewrite (testbit_high s n (j - 1)) by (try assumption; lia). reflexivity.
  - intros j _. apply Hbit.
Qed.

Definition gst (s : N) (i : nat) : N := Nat.iter i (fun st => snd (gal_turn mask n st)) s.
Definition gout (s : N) (i : nat) : bool := N.testbit (gst s i) (n - 1).
Lemma gst_S s i : gst s (S i) = snd (gal_turn mask n (gst s i)). Proof. reflexivity. Qed.
Lemma gst_lt s i : (s < 2 ^ n)%N -> (gst s i < 2 ^ n)%N.
Proof. intros Hs. induction i as [|i IH]; [exact Hs|]. rewrite gst_S. now apply gal_turn_spec. Qed.
Lemma gst_add s i k : gst s (i + k) = gst (gst s i) k.
Proof.
  revert i. induction k as [|k IH]; intros i; [now rewrite Nat.add_0_r|].
  rewrite Nat.add_succ_r, gst_S, IH, gst_S. reflexivity.
Qed.
Lemma gout_add s i k : gout s (i + k) = gout (gst s i) k.
Proof. unfold gout. now rewrite gst_add. Qed.
Lemma gst_step s i : (s < 2 ^ n)%N -> gst s (S i) = N.lxor (2 * gst s i) (N.b2n (gout s i) * mask).
Proof.
  intros Hs. rewrite gst_S. destruct (gal_turn_spec _ (gst_lt s i Hs)) as (E1 & E2 & _).
  rewrite E2, E1. reflexivity.
Qed.

Lemma gst_diag s i j : (s < 2 ^ n)%N -> (N.of_nat j < n)%N ->
  N.testbit (gst s (i + S j)) (N.of_nat j) = gf2_sum (fun k => N.testbit mask (N.of_nat k) && gout s (i + k)) (S j).
Proof.
  intros Hs. induction j as [|j IH]; intros Hj.
  - rewrite Nat.add_succ_r, gst_S, Nat.add_0_r. destruct (gal_turn_spec _ (gst_lt s i Hs)) as (_ & _ & _ & B).
    rewrite B by lia. cbn [N.of_nat N.eqb gf2_sum]. rewrite Nat.add_0_r. fold (gout s i). rewrite andb_comm. reflexivity.
  - rewrite Nat.add_succ_r, gst_S. destruct (gal_turn_spec _ (gst_lt s (i + S j) Hs)) as (_ & _ & _ & B).
    rewrite B by lia. destruct (N.eqb_spec (N.of_nat (S j)) 0); [lia|].
    replace (N.of_nat (S j) - 1)%N with (N.of_nat j) by lia. rewrite IH by lia.
    fold (gout s (i + S j)). rewrite (andb_comm (gout _ _)). reflexivity.
Qed.
Lemma gout_rec s i : (s < 2 ^ n)%N ->
  gout s (i + N.to_nat n) = gf2_sum (fun k => N.testbit mask (N.of_nat k) && gout s (i + k)) (N.to_nat n).
Proof.
  intros Hs. pose proof (gst_diag s i (N.to_nat n - 1) Hs ltac:(lia)) as E.
  replace (S (N.to_nat n - 1)) with (N.to_nat n) in E by lia. rewrite <- E. unfold gout. f_equal. lia.
Qed.

(** equal outputs for nbits turns force equal states *)
Lemma gst_diff a b k : (a < 2 ^ n)%N -> (b < 2 ^ n)%N -> (forall i, i < k -> gout a i = gout b i) ->
  N.lxor (gst a k) (gst b k) = (2 ^ N.of_nat k * N.lxor a b)%N.
Proof.
  intros Ha Hb. induction k as [|k IH]; intros H.
  - cbn [N.of_nat]. rewrite N.mul_1_l. reflexivity.
  - rewrite !gst_step by assumption. rewrite <- (H k) by lia.
    assert (E : forall x y m, N.lxor (N.lxor (2 * x) m) (N.lxor (2 * y) m) = (2 * N.lxor x y)%N).
    { intros x y m. apply N.bits_inj. intros j. rewrite !N.lxor_spec. destruct (N.eq_dec j 0) as [->|Hj].
      - rewrite !N.testbit_even_0. destruct (N.testbit m 0); reflexivity.
      - replace j with (N.succ (j - 1)) by lia. rewrite !N.testbit_even_succ by lia. rewrite N.lxor_spec.
        destruct (N.testbit m _), (N.testbit x _), (N.testbit y _); reflexivity. }
    rewrite E, IH by (intros; apply H; lia). rewrite Nat2N.inj_succ, N.pow_succ_r'. lia.
Qed.
Lemma gst_inj_out a b : (a < 2 ^ n)%N -> (b < 2 ^ n)%N ->
  (forall i, i < N.to_nat n -> gout a i = gout b i) -> a = b.
Proof.
  intros Ha Hb H. pose proof (gst_diff a b (N.to_nat n) Ha Hb H) as E. rewrite N2Nat.id in E.
  assert (Hd : (N.lxor (gst a (N.to_nat n)) (gst b (N.to_nat n)) < 2 ^ n)%N).
  { apply lt_pow2_bits. intros j Hj. rewrite N.lxor_spec.
    rewrite !(testbit_high _ n) by (try assumption; now apply gst_lt). reflexivity. }
  rewrite E in Hd. apply N.lxor_eq. destruct (N.eq_0_gt_0_cases (N.lxor a b)) as [Z|Z]; [exact Z|]. exfalso.
  assert (2 ^ n * 1 <= 2 ^ n * N.lxor a b)%N by (apply N.mul_le_mono_l; lia). lia.
Qed.

(** with the lowest bit of the mask set a turn can be undone *)
Lemma gal_turn_inj a b : N.testbit mask 0 = true -> (a < 2 ^ n)%N -> (b < 2 ^ n)%N ->
  snd (gal_turn mask n a) = snd (gal_turn mask n b) -> a = b.
Proof.
  intros M Ha Hb E.
  destruct (gal_turn_spec a Ha) as (_ & _ & _ & A). destruct (gal_turn_spec b Hb) as (_ & _ & _ & B).
  assert (T : N.testbit a (n - 1) = N.testbit b (n - 1)).
  { pose proof (A 0%N ltac:(lia)) as A0. pose proof (B 0%N ltac:(lia)) as B0. rewrite E, B0 in A0.
    rewrite M, !andb_true_r in A0. cbn in A0. now destruct (N.testbit a (n - 1)), (N.testbit b (n - 1)). }
  apply N.bits_inj. intros j. destruct (N.lt_ge_cases j n) as [Hj|Hj].
  2:{ now rewrite !(testbit_high _ n). }
  destruct (N.eq_dec j (n - 1)) as [->|Hj']; [exact T|].
  pose proof (A (j + 1)%N ltac:(lia)) as A1. pose proof (B (j + 1)%N ltac:(lia)) as B1. rewrite E, B1, T in A1.
  destruct (N.eqb_spec (j + 1) 0); [lia|]. rewrite N.add_sub in A1.
  destruct (N.testbit a j), (N.testbit b j), (N.testbit b (n - 1) && N.testbit mask (j + 1)); cbn in A1; congruence.
Qed.
Lemma gst_inj a b i : N.testbit mask 0 = true -> (a < 2 ^ n)%N -> (b < 2 ^ n)%N -> gst a i = gst b i -> a = b.
Proof.
  intros M Ha Hb. induction i as [|i IH]; intros E; [exact E|].
  apply IH. rewrite !gst_S in E. apply gal_turn_inj in E; try assumption; now apply gst_lt.
Qed.
Lemma gst_zero i : gst 0 i = 0%N.
Proof.
  induction i as [|i IH]; [reflexivity|]. rewrite gst_step by (apply N.neq_0_lt_0, N.pow_nonzero; lia).
  unfold gout. rewrite IH, N.bits_0. reflexivity.
Qed.

Lemma gal_run_nth L s i : (s < 2 ^ n)%N -> i < L ->
  nth_error (gal_run mask n s L) i = Some (N.b2n (gout s i), gst s (S i)).
Proof.
  revert s i. induction L as [|L IH]; intros s i Hs Hi; [lia|]. cbn [gal_run].
  destruct (gal_turn_spec s Hs) as (E1 & _ & Lt & _).
  destruct i as [|i].
  - cbn [nth_error]. f_equal. destruct (gal_turn mask n s) as [x st] eqn:E. cbn [fst snd] in *.
    rewrite E1. change (gst s 1) with (snd (gal_turn mask n s)). rewrite E. reflexivity.
  - cbn [nth_error]. rewrite IH by (try assumption; lia).
    change (snd (gal_turn mask n s)) with (gst s 1). rewrite <- gout_add, <- gst_add. reflexivity.
Qed.
Lemma gal_run_length L s : length (gal_run mask n s L) = L.
Proof. revert s. induction L as [|L IH]; intros s; [reflexivity|]. cbn [gal_run length]. now rewrite IH. Qed.
End Gal.

Lemma size_log2 m : (0 < m)%N -> (N.size m - 1 = N.log2 m)%N.
Proof. intros H. rewrite N.size_log2 by lia. lia. Qed.
Lemma lfsr_int_ok s mask L : (2 <= mask)%N -> lfsr_int s mask L = Ok (gal_run mask (N.log2 mask) s L).
Proof.
  intros H. unfold lfsr_int. destruct L as [|L]; [reflexivity|].
  destruct (N.eqb_spec mask 0); [lia|]. rewrite size_log2 by lia. reflexivity.
Qed.
Lemma log2_ge1 m : (2 <= m)%N -> (1 <= N.log2 m)%N.
Proof. intros H. change 1%N with (N.log2 2). now apply N.log2_le_mono. Qed.

Lemma lfsr_int_register (mask s : N) (L : nat) : (2 <= mask)%N -> (s < 2 ^ N.log2 mask)%N ->
  exists out, lfsr_int s mask L = Ok out /\ length out = L /\
   (forall i x st prev, nth_error (s :: map snd out) i = Some prev -> nth_error out i = Some (x, st) ->
      (x = 0 \/ x = 1)%N /\ (st < 2 ^ N.log2 mask)%N /\ N.lxor (2 * prev) st = (x * mask)%N).
Proof.
  intros Hm Hs. pose proof (log2_ge1 _ Hm) as Hn. eexists. split; [now apply lfsr_int_ok|]. split; [apply gal_run_length|].
  intros i x st prev Hp Ho.
  assert (Hi : i < L). { rewrite <- (gal_run_length mask (N.log2 mask) L s). apply nth_error_Some. congruence. }
  rewrite (gal_run_nth mask _ Hn eq_refl) in Ho by assumption.
  assert (Ex : x = N.b2n (gout mask (N.log2 mask) s i)) by congruence.
  assert (Est : st = gst mask (N.log2 mask) s (S i)) by congruence. clear Ho. subst x st.
  assert (Ep : prev = gst mask (N.log2 mask) s i).
  { destruct i as [|i]; [cbn in Hp; injection Hp as <-; reflexivity|]. cbn [nth_error] in Hp. rewrite nth_error_map in Hp.
    rewrite (gal_run_nth mask _ Hn eq_refl) in Hp by (try assumption; lia). cbn [option_map snd] in Hp. congruence. }
  subst prev. split; [destruct (gout _ _ _ _); cbn; auto|]. split; [now apply (gst_lt mask _ Hn eq_refl)|].
  rewrite (gst_step mask _ Hn eq_refl) by assumption. now rewrite <- N.lxor_assoc, N.lxor_nilpotent, N.lxor_0_l.
Qed.

Lemma lfsr_int_recurrence (mask s : N) (L : nat) out : (2 <= mask)%N -> (s < 2 ^ N.log2 mask)%N ->
  lfsr_int s mask L = Ok out ->
  let n := N.to_nat (N.log2 mask) in
  let bit := fun i => negb (nth i (map fst out) 0 =? 0)%N in
  forall i, i + n < L -> bit (i + n) = gf2_sum (fun k => N.testbit mask (N.of_nat k) && bit (i + k)) n.
Proof.
  intros Hm Hs E n bit i Hi. pose proof (log2_ge1 _ Hm) as Hn. rewrite lfsr_int_ok in E by assumption.
  assert (Eo : out = gal_run mask (N.log2 mask) s L) by congruence. subst out.
  assert (B : forall k, k < L -> bit k = gout mask (N.log2 mask) s k).
  { intros k Hk. unfold bit. rewrite (nth_error_nth _ k _ (x := N.b2n (gout mask (N.log2 mask) s k))).
    - destruct (gout _ _ _ _); reflexivity.
    - rewrite nth_error_map, (gal_run_nth mask _ Hn eq_refl) by assumption. reflexivity. }
  rewrite B by assumption. unfold n. rewrite (gout_rec mask _ Hn eq_refl) by assumption.
  assert (K : forall m, m <= N.to_nat (N.log2 mask) ->
     gf2_sum (fun k => N.testbit mask (N.of_nat k) && gout mask (N.log2 mask) s (i + k)) m =
     gf2_sum (fun k => N.testbit mask (N.of_nat k) && bit (i + k)) m).
  { induction m as [|m IH]; intros Hk; [reflexivity|]. cbn [gf2_sum]. rewrite IH by lia. rewrite B; [reflexivity|]. unfold n in Hi. lia. }
  now apply K.
Qed.

Lemma lfsr_int_reversible (mask a b : N) (L i : nat) outa outb x y st : (2 <= mask)%N -> N.odd mask = true ->
  (a < 2 ^ N.log2 mask)%N -> (b < 2 ^ N.log2 mask)%N ->
  lfsr_int a mask L = Ok outa -> lfsr_int b mask L = Ok outb ->
  nth_error outa i = Some (x, st) -> nth_error outb i = Some (y, st) -> a = b.
Proof.
  intros Hm Mo Ha Hb Ea Eb Na Nb. pose proof (log2_ge1 _ Hm) as Hn. rewrite lfsr_int_ok in Ea, Eb by assumption.
  assert (E1 : outa = gal_run mask (N.log2 mask) a L) by congruence.
  assert (E2 : outb = gal_run mask (N.log2 mask) b L) by congruence. subst outa outb.
  assert (Hi : i < L). { rewrite <- (gal_run_length mask (N.log2 mask) L a). apply nth_error_Some. congruence. }
  rewrite (gal_run_nth mask _ Hn eq_refl) in Na, Nb by assumption.
  apply (gst_inj mask _ Hn eq_refl a b (S i)); try assumption; [|congruence].
  rewrite N.bit0_odd. exact Mo.
Qed.
Lemma lfsr_int_zero mask L out : (2 <= mask)%N -> lfsr_int 0 mask L = Ok out -> out = repeat (0%N, 0%N) L.
Proof.
  intros Hm E. pose proof (log2_ge1 _ Hm) as Hn. rewrite lfsr_int_ok in E by assumption.
  assert (Eo : out = gal_run mask (N.log2 mask) 0 L) by congruence. subst out.
  assert (Z : (0 < 2 ^ N.log2 mask)%N) by (apply N.neq_0_lt_0, N.pow_nonzero; lia).
  apply nth_error_ext_lt; [now rewrite gal_run_length, repeat_length|].
  intros i Hi. rewrite gal_run_length in Hi. rewrite (gal_run_nth mask _ Hn eq_refl) by assumption.
  rewrite (nth_error_nth' (repeat (0%N, 0%N) L) (0%N, 0%N)) by now rewrite repeat_length.
  rewrite nth_repeat. unfold gout. rewrite !(gst_zero mask _ Hn eq_refl), N.bits_0. reflexivity.
Qed.
