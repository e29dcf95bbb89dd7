(** Lemmas about Gray codes and labels. *)
From Coq Require Import List ZArith NArith Arith Bool Lia Permutation FinFun ZifyBool ZifyNat ZifyN.
From Verif Require Import Common.Py Common.ListX Model.Gray Spec.Bits.
Import ListNotations.
Ltac Zify.zify_post_hook ::= Z.div_mod_to_equations.

(** ** bit level facts *)
Lemma bin2gray_spec v i : N.testbit (bin2gray v) i = xorb (N.testbit v i) (N.testbit v (i + 1)).
Proof. unfold bin2gray; rewrite N.lxor_spec, N.shiftr_spec'; reflexivity. Qed.

Lemma lt_pow2_bits a k : (a < 2 ^ k)%N <-> forall i, (k <= i)%N -> N.testbit a i = false.
Proof.
  split.
  - intros H i Hi. destruct (N.eq_dec a 0) as [->|Ha]; [apply N.bits_0|].
    apply N.bits_above_log2. apply N.lt_le_trans with k; [|assumption].
    apply N.log2_lt_pow2; lia.
  - intros H. destruct (N.eq_dec a 0) as [->|Ha]; [apply N.neq_0_lt_0, N.pow_nonzero; lia|].
    apply N.log2_lt_pow2; [lia|]. destruct (N.lt_ge_cases (N.log2 a) k) as [Hl|Hl]; [assumption|].
    exfalso. specialize (H _ Hl). rewrite N.bit_log2 in H by assumption. discriminate.
Qed.

Lemma bin2gray_lt v k : (v < 2 ^ k)%N -> (bin2gray v < 2 ^ k)%N.
Proof.
  rewrite !lt_pow2_bits; intros H i Hi; rewrite bin2gray_spec, !H by lia; reflexivity.
Qed.

Lemma lxor_shift_zero d : N.lxor d (N.shiftr d 1) = 0%N -> d = 0%N.
Proof.
  intros H; apply N.lxor_eq in H. rewrite N.shiftr_div_pow2 in H. change (2 ^ 1)%N with 2%N in H.
  lia.
Qed.

Lemma bin2gray_inj v w : bin2gray v = bin2gray w -> v = w.
Proof.
  intros H; apply N.lxor_eq; apply lxor_shift_zero.
  apply N.bits_inj; intros i; rewrite N.bits_0, N.lxor_spec, N.shiftr_spec', !N.lxor_spec.
  assert (E : N.testbit (bin2gray v) i = N.testbit (bin2gray w) i) by (rewrite H; reflexivity).
  rewrite !bin2gray_spec in E.
  destruct (N.testbit v i), (N.testbit v (i + 1)), (N.testbit w i), (N.testbit w (i + 1)); cbn in *; congruence.
Qed.

Lemma succ_xor_bits v : exists t, forall i, N.testbit (N.lxor v (N.succ v)) i = (i <=? t)%N.
Proof.
  induction v as [|v IH|v IH] using N.binary_ind.
  - exists 0%N; intros i; cbn [N.succ N.lxor]. destruct i as [|p]; [reflexivity|destruct p; reflexivity].
  - exists 0%N; intros i; rewrite N.lxor_spec.
    assert (E1 : N.succ (N.double v) = (2 * v + 1)%N) by (rewrite (N.double_spec v); lia).
    rewrite E1, (N.double_spec v).
    destruct (N.eq_dec i 0) as [->|Hi].
    + rewrite N.testbit_even_0, N.testbit_odd_0; reflexivity.
    + replace i with (N.succ (N.pred i)) by lia.
      rewrite N.testbit_even_succ, N.testbit_odd_succ by lia. rewrite xorb_nilpotent; lia.
  - destruct IH as [t Ht]; exists (N.succ t); intros i; rewrite N.lxor_spec.
    assert (E1 : N.succ (N.succ_double v) = (2 * N.succ v)%N) by (rewrite N.succ_double_spec; lia).
    rewrite E1, N.succ_double_spec.
    destruct (N.eq_dec i 0) as [->|Hi].
    + rewrite N.testbit_even_0, N.testbit_odd_0; cbn [xorb]; lia.
    + replace i with (N.succ (N.pred i)) by lia.
      rewrite N.testbit_even_succ, N.testbit_odd_succ by lia.
      rewrite <- N.lxor_spec, Ht; lia.
Qed.

Lemma bin2gray_step v : differ_in_one_bit (bin2gray v) (bin2gray (N.succ v)).
Proof.
  destruct (succ_xor_bits v) as [t Ht]; exists t; intros j.
  assert (E : xorb (N.testbit (bin2gray v) j) (N.testbit (bin2gray (N.succ v)) j) = (j =? t)%N).
  { rewrite !bin2gray_spec.
    pose proof (Ht j) as H1; pose proof (Ht (j + 1)%N) as H2; rewrite N.lxor_spec in H1, H2.
    transitivity (xorb (j <=? t)%N (j + 1 <=? t)%N).
    - rewrite <- H1, <- H2.
      destruct (N.testbit v j), (N.testbit v (j + 1)), (N.testbit (N.succ v) j), (N.testbit (N.succ v) (j + 1)); reflexivity.
    - destruct (j <=? t)%N eqn:?, (j + 1 <=? t)%N eqn:?; cbn; lia. }
  destruct (N.testbit (bin2gray v) j), (N.testbit (bin2gray (N.succ v)) j); cbn in E; split; try congruence; lia.
Qed.

Lemma differ_sym a b : differ_in_one_bit a b -> differ_in_one_bit b a.
Proof. intros [i H]; exists i; intros j; rewrite <- H; split; congruence. Qed.

Lemma differ_neq a b : differ_in_one_bit a b -> a <> b.
Proof. intros [i H] ->. apply (proj2 (H i)); reflexivity. Qed.

(** last code word to first: gray(2^k-1) has only the top bit *)
Lemma bin2gray_wrap k : (0 < k)%N -> differ_in_one_bit (bin2gray (2 ^ k - 1)) (bin2gray 0).
Proof.
  intros Hk; exists (k - 1)%N; intros j.
  assert (E : forall i, N.testbit (2 ^ k - 1) i = (i <? k)%N).
  { intros i. replace (2 ^ k - 1)%N with (N.ones k) by (rewrite N.ones_equiv; lia).
    destruct (N.ltb_spec i k); [apply N.ones_spec_low|apply N.ones_spec_high]; assumption. }
  rewrite !bin2gray_spec, !E, !N.bits_0.
  destruct (N.ltb_spec j k), (N.ltb_spec (j + 1) k); cbn; split; try congruence; lia.
Qed.

(** ** surjectivity on [0, 2^k) *)
Lemma pow2_nat_N k : N.of_nat (2 ^ k) = (2 ^ N.of_nat k)%N.
Proof.
  induction k as [|k IH]; [reflexivity|].
  rewrite Nat.pow_succ_r', Nat2N.inj_mul, IH, (Nat2N.inj_succ k), N.pow_succ_r'; reflexivity.
Qed.

Lemma bin2gray_surj k w : (w < 2 ^ N.of_nat k)%N -> exists v, (v < 2 ^ N.of_nat k)%N /\ bin2gray v = w.
Proof.
  intros Hw.
  set (f := fun n : nat => N.to_nat (bin2gray (N.of_nat n))).
  assert (Hf : bFun (2 ^ k) f).
  { intros n Hn; unfold f.
    assert (bin2gray (N.of_nat n) < 2 ^ N.of_nat k)%N by (apply bin2gray_lt; rewrite <- pow2_nat_N; lia).
    rewrite <- pow2_nat_N in H; lia. }
  assert (Hi : bInjective (2 ^ k) f).
  { intros x y _ _ E; unfold f in E. apply N2Nat.inj in E. apply bin2gray_inj in E. lia. }
  apply (bInjective_bSurjective Hf) in Hi.
  destruct (Hi (N.to_nat w)) as [v [Hv Ev]]; [rewrite <- pow2_nat_N in Hw; lia|].
  exists (N.of_nat v); split; [rewrite <- pow2_nat_N; lia|]. unfold f in Ev; lia.
Qed.

(** ** rows and columns: concatenating two labels *)
Lemma glue_spec a b n i : (b < 2 ^ n)%N ->
  N.testbit (N.lor (N.shiftl a n) b) i = if (i <? n)%N then N.testbit b i else N.testbit a (i - n).
Proof.
  intros Hb; rewrite N.lor_spec. destruct (N.ltb_spec i n).
  - rewrite N.shiftl_spec_low by assumption; reflexivity.
  - rewrite N.shiftl_spec_high' by assumption.
    rewrite (proj1 (lt_pow2_bits b n) Hb) by assumption. apply orb_false_r.
Qed.

Lemma glue_lt a b n r : (a < 2 ^ r)%N -> (b < 2 ^ n)%N -> (N.lor (N.shiftl a n) b < 2 ^ (r + n))%N.
Proof.
  intros Ha Hb; apply lt_pow2_bits; intros i Hi; rewrite glue_spec by assumption.
  destruct (N.ltb_spec i n); [lia|]. apply (proj1 (lt_pow2_bits a r) Ha); lia.
Qed.

Lemma glue_inj a b a' b' n : (b < 2 ^ n)%N -> (b' < 2 ^ n)%N ->
  N.lor (N.shiftl a n) b = N.lor (N.shiftl a' n) b' -> a = a' /\ b = b'.
Proof.
  intros Hb Hb' E; split; apply N.bits_inj; intros i.
  - assert (H : N.testbit (N.lor (N.shiftl a n) b) (i + n) = N.testbit (N.lor (N.shiftl a' n) b') (i + n))
      by (rewrite E; reflexivity).
    rewrite !glue_spec in H by assumption.
    destruct (N.ltb_spec (i + n) n); [lia|]. replace (i + n - n)%N with i in H by lia; exact H.
  - destruct (N.lt_ge_cases i n) as [Hi|Hi].
    + assert (H : N.testbit (N.lor (N.shiftl a n) b) i = N.testbit (N.lor (N.shiftl a' n) b') i)
        by (rewrite E; reflexivity).
      rewrite !glue_spec in H by assumption. destruct (N.ltb_spec i n); [exact H|lia].
    + rewrite (proj1 (lt_pow2_bits b n) Hb), (proj1 (lt_pow2_bits b' n) Hb') by assumption; reflexivity.
Qed.

Lemma glue_differ_row a a' b n : (b < 2 ^ n)%N -> differ_in_one_bit a a' ->
  differ_in_one_bit (N.lor (N.shiftl a n) b) (N.lor (N.shiftl a' n) b).
Proof.
  intros Hb [i H]; exists (i + n)%N; intros j; rewrite !glue_spec by assumption.
  destruct (N.ltb_spec j n); [split; [congruence|lia]|]. rewrite H; lia.
Qed.

Lemma glue_differ_col a b b' n : (b < 2 ^ n)%N -> (b' < 2 ^ n)%N -> differ_in_one_bit b b' ->
  differ_in_one_bit (N.lor (N.shiftl a n) b) (N.lor (N.shiftl a n) b').
Proof.
  intros Hb Hb' [i H].
  assert (i < n)%N.
  { destruct (N.lt_ge_cases i n) as [?|Hi]; [assumption|]. exfalso.
    apply (proj2 (H i)); [reflexivity|].
    rewrite (proj1 (lt_pow2_bits b n) Hb), (proj1 (lt_pow2_bits b' n) Hb') by assumption; reflexivity. }
  exists i; intros j; rewrite !glue_spec by assumption.
  destruct (N.ltb_spec j n); [apply H|split; [congruence|lia]].
Qed.

(** ** the QAM label grid *)
Lemma row_col_bits k : row_bits k + col_bits k = k.
Proof.
  unfold row_bits, col_bits. destruct (Nat.even k) eqn:E.
  - apply Nat.even_spec in E; destruct E as [m ->]. rewrite Nat.mul_comm, Nat.div_mul by lia; lia.
  - assert (O : Nat.odd k = true) by (unfold Nat.odd; rewrite E; reflexivity).
    apply Nat.odd_spec in O; destruct O as [m ->].
    replace (2 * m + 1 - 1) with (m * 2) by lia. rewrite Nat.div_mul by lia; lia.
Qed.

Lemma gray_code_qam_length k : length (gray_code_qam k) = 2 ^ k.
Proof. unfold gray_code_qam; rewrite grid_length, <- Nat.pow_add_r, row_col_bits; reflexivity. Qed.

Definition glue (n : nat) (i j : nat) : N :=
  N.lor (N.shiftl (bin2gray (N.of_nat i)) (N.of_nat n)) (bin2gray (N.of_nat j)).

Lemma gray_lt_nat n j : j < 2 ^ n -> (bin2gray (N.of_nat j) < 2 ^ N.of_nat n)%N.
Proof. intros; apply bin2gray_lt; rewrite <- pow2_nat_N; lia. Qed.

Lemma gray_code_qam_nth k i j : i < 2 ^ row_bits k -> j < 2 ^ col_bits k ->
  nth_error (gray_code_qam k) (i * 2 ^ col_bits k + j) = Some (glue (col_bits k) i j).
Proof. intros; unfold gray_code_qam; rewrite grid_nth by assumption; reflexivity. Qed.

Lemma glue_nat_lt k i j : i < 2 ^ row_bits k -> j < 2 ^ col_bits k -> (glue (col_bits k) i j < 2 ^ N.of_nat k)%N.
Proof.
  intros. unfold glue.
  replace (2 ^ N.of_nat k)%N with (2 ^ (N.of_nat (row_bits k) + N.of_nat (col_bits k)))%N
    by (rewrite <- Nat2N.inj_add, row_col_bits; reflexivity).
  apply glue_lt; apply gray_lt_nat; assumption.
Qed.

Lemma divmod_idx k n m : k < m * n -> n <> 0 /\ k / n < m /\ k mod n < n /\ k = k / n * n + k mod n.
Proof.
  intros H. assert (n <> 0) by (intros ->; lia). repeat split; try assumption.
  - apply Nat.div_lt_upper_bound; lia.
  - apply Nat.mod_upper_bound; assumption.
  - rewrite Nat.mul_comm; apply Nat.div_mod_eq.
Qed.

Lemma gray_code_qam_in_range k x : In x (gray_code_qam k) -> (x < 2 ^ N.of_nat k)%N.
Proof.
  intros H; apply in_grid in H; destruct H as [i [j [Hi [Hj <-]]]]. apply glue_nat_lt; assumption.
Qed.

Lemma gray_code_qam_NoDup k : NoDup (gray_code_qam k).
Proof.
  apply NoDup_nth_error; intros a b Ha E.
  assert (Hb : b < length (gray_code_qam k)).
  { apply nth_error_Some; rewrite <- E; apply nth_error_Some; assumption. }
  unfold gray_code_qam in *; rewrite grid_length in *.
  rewrite !grid_nth_divmod in E by assumption.
  destruct (divmod_idx _ _ _ Ha) as [? [? [? Ea]]], (divmod_idx _ _ _ Hb) as [? [? [? Eb]]].
  injection E as E. apply glue_inj in E; try (apply gray_lt_nat; assumption).
  destruct E as [E1 E2]; apply bin2gray_inj in E1, E2. rewrite Ea, Eb. lia.
Qed.

Lemma gray_code_psk_length k : length (gray_code_psk k) = 2 ^ k.
Proof. unfold gray_code_psk; rewrite map_length, seq_length; reflexivity. Qed.
Lemma gray_code_psk_nth k i : i < 2 ^ k -> nth_error (gray_code_psk k) i = Some (bin2gray (N.of_nat i)).
Proof. intros; unfold gray_code_psk; rewrite nth_error_map_seq by assumption; reflexivity. Qed.
Lemma gray_code_psk_in_range k x : In x (gray_code_psk k) -> (x < 2 ^ N.of_nat k)%N.
Proof.
  intros H; apply in_map_iff in H; destruct H as [i [<- Hi]]; apply in_seq in Hi; apply gray_lt_nat; lia.
Qed.
Lemma gray_code_psk_NoDup k : NoDup (gray_code_psk k).
Proof.
  apply Injective_map_NoDup; [|apply seq_NoDup]. intros x y E; apply bin2gray_inj in E; lia.
Qed.

(** ** the inverse permutation *)
Definition code_ok (g : list N) : Prop := NoDup g /\ forall x, In x g -> N.to_nat x < length g.

Lemma inverse_code_aux g s u0 :
  NoDup g -> (forall x, In x g -> N.to_nat x < length u0) ->
  exists u,
    fold_left (fun acc p => let! u := acc in setn (N.to_nat (snd p)) (fst p) u)
              (combine (seq s (length g)) g) (Ok u0) = Ok u /\
    length u = length u0 /\
    (forall i x, nth_error g i = Some x -> nth_error u (N.to_nat x) = Some (s + i)) /\
    (forall j, (forall x, In x g -> N.to_nat x <> j) -> nth_error u j = nth_error u0 j).
Proof.
  revert s u0; induction g as [|x g IH]; intros s u0 Hnd Hr; cbn [length seq combine fold_left].
  - exists u0; repeat split; auto. intros i y H; destruct i; discriminate.
  - cbn [bind fst snd]. unfold setn.
    assert (Hx : N.to_nat x < length u0) by (apply Hr; left; reflexivity).
    apply Nat.ltb_lt in Hx as Hx'; rewrite Hx'.
    inversion Hnd as [|? ? Hnin Hnd']; subst.
    destruct (IH (S s) (upd (N.to_nat x) s u0) Hnd') as [u [Hu [Hl [Hin Hout]]]].
    { intros y Hy; rewrite upd_length; apply Hr; right; assumption. }
    exists u; split; [exact Hu|]. rewrite upd_length in Hl. split; [exact Hl|]. split.
    + intros [|i] y Hy; cbn in Hy.
      * injection Hy as <-. rewrite Hout; [rewrite upd_nth_same by assumption; f_equal; lia|].
        intros y Hy E. apply N2Nat.inj in E; subst; contradiction.
      * rewrite (Hin i y Hy); f_equal; lia.
    + intros j Hj. rewrite Hout by (intros y Hy; apply Hj; right; assumption).
      apply upd_nth_other. apply Hj; left; reflexivity.
Qed.

Lemma inverse_code_ok g : code_ok g ->
  exists u, inverse_code g = Ok u /\ length u = length g /\
    (forall i x, nth_error g i = Some x -> nth_error u (N.to_nat x) = Some i) /\
    Permutation u (seq 0 (length g)).
Proof.
  intros [Hnd Hr].
  destruct (inverse_code_aux g 0 (repeat 0 (length g)) Hnd) as [u [Hu [Hl [Hin _]]]].
  { intros x Hx; rewrite repeat_length; apply Hr; assumption. }
  rewrite repeat_length in Hl. exists u; repeat split; try assumption.
  symmetry. apply NoDup_Permutation_bis.
  - apply seq_NoDup.
  - rewrite seq_length; lia.
  - intros i Hi; apply in_seq in Hi. destruct (nth_error_lt_Some g i) as [x Hx]; [lia|].
    eapply nth_error_In. exact (Hin i x Hx).
Qed.

Lemma coded_symbols_ok {A} (symbols : list A) g :
  code_ok g -> length symbols = length g ->
  exists cs, coded_symbols_of symbols g = Ok cs /\ Permutation cs symbols /\
    (forall i x, nth_error g i = Some x -> nth_error cs (N.to_nat x) = nth_error symbols i).
Proof.
  intros Hg Hl; destruct (inverse_code_ok g Hg) as [u [Hu [Hlu [Hin Hp]]]].
  unfold coded_symbols_of; rewrite Hu; cbn [bind].
  destruct symbols as [|a0 symbols'] eqn:Es.
  { destruct g; [|discriminate]. destruct u; [|discriminate]. exists []; cbn; repeat split; auto.
    intros i x H; destruct i; discriminate. }
  rewrite <- Es in *.
  assert (Hf : fancy_get u symbols = Ok (map (fun i => nth i symbols a0) u)).
  { apply mapM_ok; intros i Hi. unfold getn.
    assert (i < length symbols).
    { apply (Permutation_in _ Hp) in Hi; apply in_seq in Hi; lia. }
    rewrite (nth_error_nth' symbols a0) by assumption; reflexivity. }
  exists (map (fun i => nth i symbols a0) u); split; [exact Hf|]. split.
  - transitivity (map (fun i => nth i symbols a0) (seq 0 (length g))); [apply Permutation_map; assumption|].
    replace (map (fun i => nth i symbols a0) (seq 0 (length g))) with symbols; [reflexivity|].
    rewrite <- Hl. apply nth_error_ext_lt; [rewrite map_length, seq_length; reflexivity|].
    intros i Hi. rewrite nth_error_map_seq by assumption. apply nth_error_nth'; assumption.
  - intros i x Hx. rewrite nth_error_map, (Hin i x Hx); cbn.
    symmetry; apply nth_error_nth'. apply nth_error_Some_lt in Hx; lia.
Qed.

Lemma gray_qam_code_ok k : code_ok (gray_code_qam k).
Proof.
  split; [apply gray_code_qam_NoDup|]. intros x Hx; rewrite gray_code_qam_length.
  apply gray_code_qam_in_range in Hx; rewrite <- pow2_nat_N in Hx; lia.
Qed.
Lemma gray_psk_code_ok k : code_ok (gray_code_psk k).
Proof.
  split; [apply gray_code_psk_NoDup|]. intros x Hx; rewrite gray_code_psk_length.
  apply gray_code_psk_in_range in Hx; rewrite <- pow2_nat_N in Hx; lia.
Qed.

(** every label is hit *)
Lemma code_ok_surj g a : code_ok g -> a < length g -> exists i, nth_error g i = Some (N.of_nat a).
Proof.
  intros [Hnd Hr] Ha.
  assert (Hp : Permutation (map N.to_nat g) (seq 0 (length g))).
  { apply NoDup_Permutation_bis.
    - apply Injective_map_NoDup; [intros x y; apply N2Nat.inj|assumption].
    - rewrite map_length, seq_length; lia.
    - intros x Hx; apply in_map_iff in Hx; destruct Hx as [y [<- Hy]]; apply in_seq.
      specialize (Hr y Hy); lia. }
  assert (Hin : In a (map N.to_nat g)).
  { eapply Permutation_in; [symmetry; exact Hp|]. apply in_seq; lia. }
  apply in_map_iff in Hin; destruct Hin as [x [<- Hx]]. rewrite N2Nat.id.
  apply In_nth_error; assumption.
Qed.

(** ** encoding rows *)
Lemma encode_row_length k i : length (encode_row k i) = k.
Proof. unfold encode_row; rewrite rev_length, map_length, seq_length; reflexivity. Qed.

Lemma land_bit_test i j : negb (N.eqb (N.land i (N.shiftl 1 j)) 0) = N.testbit i j.
Proof.
  rewrite N.shiftl_1_l. destruct (N.testbit i j) eqn:E.
  - apply negb_true_iff, N.eqb_neq; intros H.
    assert (N.testbit (N.land i (2 ^ j)) j = false) by (rewrite H; apply N.bits_0).
    rewrite N.land_spec, E, N.pow2_bits_true in H0; discriminate.
  - apply negb_false_iff, N.eqb_eq, N.bits_inj; intros m.
    rewrite N.land_spec, N.bits_0, N.pow2_bits_eqb.
    destruct (N.eqb_spec j m) as [<-|]; [rewrite E; reflexivity|apply andb_false_r].
Qed.

Lemma encode_row_nth k i b : b < k -> nth_error (encode_row k i) b = Some (label_bit k b i).
Proof.
  intros Hb; unfold encode_row, label_bit.
  rewrite (nth_error_nth' _ false) by (rewrite rev_length, map_length, seq_length; assumption).
  f_equal. rewrite rev_nth by (rewrite map_length, seq_length; assumption).
  rewrite map_length, seq_length.
  erewrite nth_error_nth; [|apply nth_error_map_seq; lia].
  rewrite land_bit_test, Nat.add_0_l; f_equal; f_equal; lia.
Qed.

(** ** block_index is the value of the bit block *)
Lemma block_index_cons k b block : length block = k ->
  block_index (S k) (b :: block) = (if b : bool then 2 ^ k else 0) + block_index k block.
Proof.
  intros Hl; unfold block_index. rewrite seq_S, rev_app_distr; cbn [rev app map combine fold_right fst snd].
  rewrite Nat.add_0_l. reflexivity.
Qed.

Lemma block_index_lt k block : length block = k -> block_index k block < 2 ^ k.
Proof.
  revert k; induction block as [|b block IH]; intros k Hl; cbn [length] in Hl; subst k.
  - cbn; lia.
  - rewrite block_index_cons by reflexivity. specialize (IH _ eq_refl).
    rewrite Nat.pow_succ_r'; destruct b; lia.
Qed.

Lemma bits_value_acc l acc :
  fold_left (fun acc b => (2 * acc + (if b : bool then 1 else 0))%N) l acc
  = (acc * 2 ^ N.of_nat (length l) + bits_value l)%N.
Proof.
  unfold bits_value; revert acc; induction l as [|b l IH]; intros acc.
  - cbn [fold_left length]; change (2 ^ N.of_nat 0)%N with 1%N; lia.
  - cbn [fold_left length]. rewrite IH. rewrite (IH (2 * 0 + _)%N).
    rewrite Nat2N.inj_succ, N.pow_succ_r'. destruct b; lia.
Qed.

Lemma bits_value_cons b l : bits_value (b :: l) = ((if b : bool then 2 ^ N.of_nat (length l) else 0) + bits_value l)%N.
Proof.
  unfold bits_value at 1; cbn [fold_left]. rewrite bits_value_acc. destruct b; lia.
Qed.

Lemma block_index_value k block : length block = k -> N.of_nat (block_index k block) = bits_value block.
Proof.
  revert k; induction block as [|b block IH]; intros k Hl; cbn [length] in Hl; subst k; [reflexivity|].
  rewrite block_index_cons, bits_value_cons, Nat2N.inj_add, IH by reflexivity.
  destruct b; [rewrite pow2_nat_N|]; reflexivity.
Qed.

(** encoding then block index is the identity, and conversely *)
Lemma encode_block k block : length block = k -> encode_row k (block_index k block) = block.
Proof.
  intros Hl. apply nth_error_ext_lt; [rewrite encode_row_length; congruence|].
  intros b Hb; rewrite encode_row_length in Hb. rewrite encode_row_nth by assumption.
  unfold label_bit. rewrite (block_index_value k block Hl).
  clear -Hl Hb. revert k b Hl Hb.
  induction block as [|c block IH]; intros k b Hl Hb; cbn [length] in Hl; [lia|].
  subst k. rewrite bits_value_cons.
  assert (Hv : (bits_value block < 2 ^ N.of_nat (length block))%N).
  { rewrite <- (block_index_value _ block eq_refl), <- pow2_nat_N.
    pose proof (block_index_lt _ block eq_refl); lia. }
  assert (Hs : forall i, N.testbit ((if c then 2 ^ N.of_nat (length block) else 0) + bits_value block) i
             = if (i =? N.of_nat (length block))%N then c else N.testbit (bits_value block) i).
  { intros i. destruct c.
    - assert (L : N.land (2 ^ N.of_nat (length block)) (bits_value block) = 0%N).
      { apply N.bits_inj; intros m; rewrite N.land_spec, N.bits_0, N.pow2_bits_eqb.
        destruct (N.eqb_spec (N.of_nat (length block)) m) as [<-|]; [|reflexivity].
        rewrite (proj1 (lt_pow2_bits _ _) Hv); [reflexivity|lia]. }
      rewrite N.add_nocarry_lxor by exact L. rewrite N.lxor_spec, N.pow2_bits_eqb, N.eqb_sym.
      destruct (N.eqb_spec i (N.of_nat (length block))) as [->|].
      + rewrite (proj1 (lt_pow2_bits _ _) Hv); [reflexivity|lia].
      + apply xorb_false_l.
    - rewrite N.add_0_l. destruct (N.eqb_spec i (N.of_nat (length block))) as [->|]; [|reflexivity].
      apply (proj1 (lt_pow2_bits _ _) Hv); lia. }
  rewrite Hs. destruct b as [|b].
  - destruct (N.eqb_spec (N.of_nat (S (length block) - 1 - 0)) (N.of_nat (length block))); [reflexivity|lia].
  - destruct (N.eqb_spec (N.of_nat (S (length block) - 1 - S b)) (N.of_nat (length block))); [lia|].
    cbn [nth_error]. rewrite <- (IH (length block) b eq_refl) by lia. do 3 f_equal; lia.
Qed.
