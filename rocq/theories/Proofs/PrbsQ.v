From Coq Require Import List NArith Arith Bool Lia ZArith ZifyBool ZifyNat ZifyN.
From Verif Require Import Common.Py Common.ListX Model.Prbs Spec.BitSeq Proofs.PrbsP.
Import ListNotations.
Local Open Scope nat_scope.

Fixpoint val (w : list bool) : N :=
  match w with [] => 0%N | b :: w' => (2 * val w' + N.b2n b)%N end.
Lemma val_bit w j : N.testbit (val w) (N.of_nat j) = nth j w false.
Proof.
  revert j. induction w as [|b w IH]; intros [|j]; cbn [val nth].
  - reflexivity.
  - apply N.bits_0.
  - apply N.testbit_0_r.
  - rewrite Nat2N.inj_succ, N.testbit_succ_r. apply IH.
Qed.
Lemma val_lt w : (val w < 2 ^ N.of_nat (length w))%N.
Proof.
  induction w as [|b w IH]; cbn [val length]; [reflexivity|].
  rewrite Nat2N.inj_succ, N.pow_succ_r'. destruct b; cbn [N.b2n]; lia.
Qed.

Lemma window_pbits n a b s L i : (1 <= n)%N -> (s < 2 ^ n)%N -> i + N.to_nat n <= L ->
  window (pbits n a b s L) i (N.to_nat n)
  = map (fun j => N.testbit (reg n a b s (N.to_nat n + i)) (N.of_nat j)) (seq 0 (N.to_nat n)).
Proof.
  intros Hn Hs HL. apply nth_error_ext_lt.
  - unfold window, pbits. rewrite firstn_length, skipn_length, !map_length, !seq_length. lia.
  - unfold window at 1. rewrite firstn_length, skipn_length. unfold pbits at 1. rewrite map_length, seq_length.
    intros j Hj. unfold window. rewrite nth_error_firstn_lt, nth_error_skipn' by lia.
    unfold pbits. rewrite !nth_error_map_seq by lia.
    rewrite out_sbit, reg_sbit by (try assumption; lia). f_equal. f_equal. lia.
Qed.

Lemma bits_eq n x y : (x < 2 ^ n)%N -> (y < 2 ^ n)%N ->
  map (fun j => N.testbit x (N.of_nat j)) (seq 0 (N.to_nat n)) = map (fun j => N.testbit y (N.of_nat j)) (seq 0 (N.to_nat n)) ->
  x = y.
Proof.
  intros Hx Hy E. apply N.bits_inj. intros j. destruct (N.lt_ge_cases j n) as [H|H].
  - apply (f_equal (fun l => nth_error l (N.to_nat j))) in E.
    rewrite !nth_error_map_seq in E by lia. cbn [Nat.add] in E. rewrite N2Nat.id in E. now injection E.
  - rewrite <- (N.mod_small _ _ Hx), <- (N.mod_small _ _ Hy). now rewrite !N.mod_pow2_bits_high.
Qed.

Definition taps_of (order : nat) : N * N :=
  (N.of_nat (fst (prbs_taps order)), N.of_nat (snd (prbs_taps order))).

Lemma tapdict_orders order : In order prbs_orders ->
  tapdict (N.of_nat order) = Some [fst (taps_of order); snd (taps_of order)].
Proof. intros [<-|[<-|[<-|[<-|[]]]]]; reflexivity. Qed.

Lemma good_orders order : In order prbs_orders ->
  exists P ps, good (N.of_nat order) (fst (taps_of order)) (snd (taps_of order)) P ps /\ Pos.to_nat P = 2 ^ order - 1.
Proof.
  intros H.
  assert (K : exists P ps, good (N.of_nat order) (fst (taps_of order)) (snd (taps_of order)) P ps).
  { destruct H as [<-|[<-|[<-|[<-|[]]]]]; do 2 eexists.
    - exact good_7. - exact good_15. - exact good_23. - exact good_31. }
  destruct K as (P & ps & G). exists P, ps. split; [exact G|].
  assert (E : N.pos P = (2 ^ N.of_nat order - 1)%N) by apply G.
  clear - E. apply (f_equal N.to_nat) in E. cbn [N.to_nat] in E. rewrite E, N2Nat.inj_sub, N2Nat.inj_pow, Nat2N.id. reflexivity.
Qed.

Lemma in_range order s : (s < 2 ^ N.of_nat order)%N <-> (s < 2 ^ N.of_nat (N.to_nat (N.of_nat order)))%N.
Proof. now rewrite Nat2N.id. Qed.

Lemma make_int order L s : In order prbs_orders -> (s < 2 ^ N.of_nat order)%N ->
  make_prbs_extXOR (N.of_nat order) L (SeedInt s)
  = Ok (pbits (N.of_nat order) (fst (taps_of order)) (snd (taps_of order)) s L).
Proof.
  intros Ho Hs. unfold make_prbs_extXOR. rewrite tapdict_orders by assumption. cbn [resolve_seed bind].
  rewrite prbs_ext_reg; [reflexivity| |assumption].
  destruct Ho as [<-|[<-|[<-|[<-|[]]]]]; lia.
Qed.

Lemma bool2bin_from_ones i n : bool2bin_from i (repeat true n) = ((2 ^ N.of_nat n - 1) * 2 ^ i)%N.
Proof.
  revert i. induction n as [|n IH]; intros i; [reflexivity|].
  cbn [repeat bool2bin_from]. rewrite IH, N.shiftl_mul_pow2, Nat2N.inj_succ, N.pow_succ_r', N.pow_add_r.
  change (2 ^ 1)%N with 2%N. cbn [N.b2n].
  assert (1 <= 2 ^ N.of_nat n)%N by (pose proof (N.pow_nonzero 2 (N.of_nat n)); lia).
  nia.
Qed.

Lemma bool2bin_bits x : length x < 64 -> bool2bin x = Ok (val x).
Proof.
  intros H. unfold bool2bin. destruct (Nat.ltb_spec (length x) 64); [|lia]. f_equal.
  assert (K : forall i, bool2bin_from i x = (val x * 2 ^ i)%N).
  { clear H H0. induction x as [|b x IH]; intros i; cbn [bool2bin_from val]; [reflexivity|].
    rewrite IH, N.shiftl_mul_pow2, N.pow_add_r. change (2 ^ 1)%N with 2%N. lia. }
  rewrite K, N.pow_0_r, N.mul_1_r. reflexivity.
Qed.

Lemma make_none order L : In order prbs_orders ->
  make_prbs_extXOR (N.of_nat order) L SeedNone = make_prbs_extXOR (N.of_nat order) L (SeedInt (2 ^ N.of_nat order - 1)).
Proof.
  intros Ho. unfold make_prbs_extXOR. rewrite tapdict_orders by assumption.
  cbn [resolve_seed]. unfold bool2bin. rewrite repeat_length, Nat2N.id.
  replace (order <? 64) with true.
  - rewrite bool2bin_from_ones, N.pow_0_r, N.mul_1_r. reflexivity.
  - destruct Ho as [<-|[<-|[<-|[<-|[]]]]]; reflexivity.
Qed.

(** every way of giving the seed is an in-range integer seed *)
Lemma make_bits order L b : In order prbs_orders -> length b = order ->
  make_prbs_extXOR (N.of_nat order) L (SeedBits b) = make_prbs_extXOR (N.of_nat order) L (SeedInt (val b)).
Proof.
  intros Ho Hb. unfold make_prbs_extXOR. rewrite tapdict_orders by assumption. cbn [resolve_seed].
  rewrite bool2bin_bits; [reflexivity|]. destruct Ho as [<-|[<-|[<-|[<-|[]]]]]; lia.
Qed.

(** ** C08 *)
Lemma c08 order L s : In order prbs_orders -> (s < 2 ^ N.of_nat order)%N ->
  exists out, make_prbs_extXOR (N.of_nat order) L (SeedInt s) = Ok out /\ length out = L /\
    (forall i, order <= i < order + L ->
       recurrence_at (seeded order s out) (fst (prbs_taps order)) (snd (prbs_taps order)) i) /\
    (s <> 0%N -> forall i, i + order <= order + L -> window (seeded order s out) i order <> repeat false order).
Proof.
  intros Ho Hs. eexists. split; [now apply make_int|].
  destruct (good_orders order Ho) as (P & ps & G & _).
  set (a := fst (taps_of order)) in *. set (b := snd (taps_of order)) in *.
  set (n := N.of_nat order) in *.
  assert (Hn : (1 <= n)%N) by apply G.
  assert (En : order = N.to_nat n) by (unfold n; lia).
  assert (Es : seeded order s (pbits n a b s L) = map (sbit n a b s) (seq 0 (order + L))).
  { rewrite En. now apply seeded_sbit. }
  rewrite Es. split; [|split].
  - unfold pbits. now rewrite map_length, seq_length.
  - intros i Hi.
    assert (Ha : (1 <= a <= n)%N) by apply G. assert (Hb : (1 <= b <= n)%N) by apply G.
    assert (Ea : fst (prbs_taps order) = N.to_nat a) by (unfold a, taps_of; cbn [fst]; lia).
    assert (Eb : snd (prbs_taps order) = N.to_nat b) by (unfold b, taps_of; cbn [snd]; lia).
    rewrite Ea, Eb. split; [lia|]. split; [lia|].
    exists (sbit n a b s (i - N.to_nat a)), (sbit n a b s (i - N.to_nat b)).
    rewrite !nth_error_map_seq by lia. cbn [Nat.add].
    split; [reflexivity|]. split; [reflexivity|]. f_equal. apply sbit_rec; try assumption; lia.
  - intros Hs0 i Hi E.
    apply (reg_nonzero G s Hs Hs0 i). apply N.bits_inj. intros j. rewrite N.bits_0.
    destruct (N.lt_ge_cases j n) as [H|H].
    + apply (f_equal (fun l => nth_error l (N.to_nat j))) in E. unfold window in E.
      rewrite nth_error_firstn_lt, nth_error_skipn', nth_error_map_seq, nth_error_repeat_lt in E by lia.
      cbn [Nat.add] in E. injection E as E. rewrite <- E.
      rewrite <- (N2Nat.id j) at 1. rewrite reg_sbit by (try assumption; lia). f_equal.
    + rewrite <- (N.mod_small _ _ (reg_lt n a b s i Hn Hs)). now rewrite N.mod_pow2_bits_high.
Qed.

(** ** C09 *)
Lemma c09 order L s out : In order prbs_orders -> (0 < s < 2 ^ N.of_nat order)%N ->
  make_prbs_extXOR (N.of_nat order) L (SeedInt s) = Ok out ->
  let P := 2 ^ order - 1 in
  (forall i, i + P < L -> nth_error out (i + P) = nth_error out i) /\
  (forall q i, 0 < q -> i + q + order <= L -> window out (i + q) order = window out i order -> Nat.divide P q) /\
  (P + order <= L -> forall w, length w = order -> w <> repeat false order ->
     exists i, i < P /\ window out i order = w /\ forall j, j < P -> window out j order = w -> j = i).
Proof.
  intros Ho [Hs0 Hs] E P0. rewrite make_int in E by assumption.
  match type of E with Ok ?x = Ok _ => assert (Eo : out = x) by congruence end. rewrite Eo. clear E Eo.
  destruct (good_orders order Ho) as (P & ps & G & EP). subst P0. rewrite <- EP. clear EP.
  set (a := fst (taps_of order)) in *. set (b := snd (taps_of order)) in *.
  set (n := N.of_nat order) in *.
  assert (Hn : (1 <= n)%N) by apply G.
  assert (En : order = N.to_nat n) by (unfold n; lia).
  assert (Hs1 : s <> 0%N) by lia. clearbody a b n.
  rewrite En. clear order Ho En. split; [|split].
  - intros i Hi. unfold pbits. rewrite !nth_error_map_seq by lia. rewrite !Nat.add_0_l. now rewrite (reg_period G s Hs).
  - intros q i Hq HL E. rewrite !window_pbits in E by (try assumption; lia).
    apply bits_eq in E; try (apply reg_lt; assumption).
    replace q with (N.to_nat n + (i + q) - (N.to_nat n + i)) by lia.
    apply (reg_eq_mod G s Hs Hs1); [lia|now symmetry].
  - intros HL w Hw Hw0.
    assert (Ew : map (fun j => N.testbit (val w) (N.of_nat j)) (seq 0 (N.to_nat n)) = w).
    { rewrite <- Hw. clear. apply nth_error_ext_lt; [now rewrite map_length, seq_length|].
      rewrite map_length, seq_length. intros i Hi. rewrite nth_error_map_seq by assumption.
      rewrite val_bit. symmetry. apply nth_error_nth'. exact Hi. }
    assert (Hv : (val w < 2 ^ n)%N) by (pose proof (val_lt w) as H; rewrite Hw, N2Nat.id in H; exact H).
    assert (Hv0 : val w <> 0%N).
    { intros H0. apply Hw0. rewrite <- Ew, H0. clear.
      generalize 0 at 1 as k. induction (N.to_nat n) as [|m IH]; intros k; [reflexivity|].
      cbn [seq map repeat]. rewrite IH, N.bits_0. reflexivity. }
    pose (s' := reg n a b s (N.to_nat n)).
    assert (Hs' : (s' < 2 ^ n)%N) by (apply reg_lt; assumption).
    assert (Hs1' : s' <> 0%N) by (apply (reg_nonzero G s Hs Hs1)).
    assert (Er : forall i, reg n a b s (N.to_nat n + i) = reg n a b s' i).
    { intros i. unfold s'. rewrite Nat.add_comm. apply reg_shift. }
    destruct (reg_surj G s' Hs' Hs1' (val w) Hv0 Hv) as (i & Hi & Ei).
    exists i. split; [exact Hi|]. split.
    + rewrite window_pbits by (try assumption; lia). rewrite Er, Ei. exact Ew.
    + intros j Hj Ej. rewrite window_pbits in Ej by (try assumption; lia). rewrite <- Ew in Ej.
      apply bits_eq in Ej; [|apply reg_lt; assumption|assumption].
      rewrite Er in Ej. apply (reg_inj G s' Hs' Hs1'); try assumption. now rewrite Ej.
Qed.

Lemma c09_zero order L : In order prbs_orders ->
  make_prbs_extXOR (N.of_nat order) L (SeedInt 0) = Ok (repeat false L).
Proof.
  intros Ho. rewrite make_int by (try assumption; apply N.neq_0_lt_0, N.pow_nonzero; lia). f_equal.
  unfold pbits. generalize (fst (taps_of order)), (snd (taps_of order)), (N.of_nat order). intros a b n.
  assert (R : forall i, reg n a b 0 i = 0%N).
  { induction i as [|i IH]; [reflexivity|].
    change (reg n a b 0 (S i)) with (lstep n a b (reg n a b 0 i)). rewrite IH. apply linear_0, lstep_linear. }
  generalize 0%nat as k. induction L as [|L IH]; intros k; [reflexivity|].
  cbn [seq map repeat]. rewrite IH, R. unfold tapf. now rewrite !N.bits_0.
Qed.

(** ** C10 *)
Lemma c10_given draws L nmodes seed order :
  nmodes <= length order -> nmodes <= length seed ->
  (forall i o s, i < nmodes -> nth_error order i = Some o -> nth_error seed i = Some s ->
     exists row, make_prbs_extXOR o L s = Ok row) ->
  exists rows, PRBSBits draws L nmodes seed order = Ok rows /\ length rows = nmodes /\
    forall i o s, i < nmodes -> nth_error order i = Some o -> nth_error seed i = Some s ->
      exists row, nth_error rows i = Some row /\ make_prbs_extXOR o L s = Ok row.
Proof.
  intros Ho Hs Hok. unfold PRBSBits, prbs_orders_seeds.
  destruct (Nat.ltb_spec (length order) nmodes); [lia|].
  assert (K : exists rows, mapM (fun i => let! o := getn order i in let! s := getn seed i in make_prbs_extXOR o L s)
                             (seq 0 nmodes) = Ok rows).
  { assert (Hseq : Forall (fun i => i < nmodes) (seq 0 nmodes)).
    { apply Forall_forall. intros i Hi. apply in_seq in Hi. lia. }
    induction Hseq as [|i l Hi _ (rows & IH)]; [exists []; reflexivity|].
    cbn [mapM]. destruct (nth_error_lt_Some order i ltac:(lia)) as [o Eo].
    destruct (nth_error_lt_Some seed i ltac:(lia)) as [s Es].
    destruct (Hok i o s Hi Eo Es) as [row Er].
    unfold getn at 1 2. rewrite Eo, Es. cbn [bind]. rewrite Er. cbn [bind]. rewrite IH. eexists; reflexivity. }
  destruct K as [rows E]. exists rows. split; [exact E|].
  pose proof (mapM_length _ _ _ E) as El. rewrite seq_length in El.
  split; [exact El|]. intros i o s Hi Eo Es.
  destruct (nth_error_lt_Some rows i ltac:(lia)) as [row Er].
  exists row. split; [exact Er|].
  pose proof (mapM_nth _ _ _ i i E (nth_error_seq 0 nmodes i Hi)) as (b & Eb & Ef).
  rewrite Er in Eb. injection Eb as <-. unfold getn in Ef. rewrite Eo, Es in Ef. exact Ef.
Qed.

(** the first given order and seed survive also when the lists are too short *)
Lemma passes_prefix draws order seed : forall n i on sn nd,
  exists eo es, prbs_passes draws n i order seed on sn nd = (on ++ eo, sn ++ es).
Proof.
  induction n as [|n IH]; intros i on sn nd; cbn [prbs_passes].
  - exists [], []. now rewrite !app_nil_r.
  - unfold prbs_pass. destruct (nth_error _ i) as [o|]; [destruct (nth_error _ i) as [s|]|];
      match goal with |- context [prbs_passes _ _ _ _ _ ?a ?b ?c] => destruct (IH (S i) a b c) as (eo & es & E) end;
      rewrite E, <- ?app_assoc; do 2 eexists; reflexivity.
Qed.

Lemma c10_first draws L nmodes seed order o s so rows : 1 <= nmodes ->
  nth_error order 0 = Some o -> nth_error seed 0 = Some s ->
  PRBSBits draws L nmodes seed order = Ok rows -> nth_error rows 0 = Some so ->
  make_prbs_extXOR o L s = Ok so.
Proof.
  intros Hn Ho Hs E Er. unfold PRBSBits in E.
  destruct (prbs_orders_seeds draws nmodes order seed) as [order' seed'] eqn:Eo.
  assert (H0 : nth_error order' 0 = Some o /\ nth_error seed' 0 = Some s).
  { unfold prbs_orders_seeds in Eo. destruct (length order <? nmodes); [|injection Eo as <- <-; auto].
    destruct nmodes as [|n]; [lia|]. cbn [prbs_passes] in Eo. unfold prbs_pass in Eo. cbn [negb Nat.eqb] in Eo.
    rewrite Ho, Hs in Eo.
    destruct (passes_prefix draws order seed n 1 ([] ++ [o]) ([] ++ [s]) 0) as (eo & es & Ep).
    rewrite Ep in Eo. injection Eo as <- <-. split; reflexivity. }
  destruct H0 as [H1 H2].
  destruct (mapM_nth _ _ _ 0 0 E (nth_error_seq 0 nmodes 0 ltac:(lia))) as (b & Eb & Ef).
  rewrite Er in Eb. injection Eb as <-. unfold getn in Ef. rewrite H1, H2 in Ef. exact Ef.
Qed.

Definition const_draw (o s : N) : nat -> N * N := fun _ => (o, s).

(** a given second order is replaced by a random one *)
Lemma c10_ignored : exists draws row, draws_ok draws /\
  make_prbs_extXOR 7 8 (SeedInt 2) = Ok row /\
  exists rows, PRBSBits draws 8 3 [SeedInt 1; SeedInt 2] [7%N; 7%N] = Ok rows /\ nth_error rows 1 <> Some row.
Proof.
  exists (const_draw 15 1). eexists. split; [intros i; cbn; split; [now left|reflexivity]|].
  split; [vm_compute; reflexivity|]. eexists. split; [vm_compute; reflexivity|]. vm_compute. discriminate.
Qed.

(** the random seed may be zero: a constant sequence of any length *)
Lemma c10_constant : exists draws, draws_ok draws /\ forall L, PRBSBits draws L 1 [] [] = Ok [repeat false L].
Proof.
  exists (const_draw 15 0). split; [intros i; cbn; split; [now left|reflexivity]|].
  intros L. transitivity (let! r := make_prbs_extXOR (N.of_nat 15) L (SeedInt 0) in Ok [r]); [reflexivity|].
  rewrite c09_zero by (right; left; reflexivity). reflexivity.
Qed.

(** a seed list shorter than the order list raises IndexError *)
Lemma c10_index draws L : PRBSBits draws L 3 [SeedNone; SeedNone] [15; 23; 15]%N = Err IndexError.
Proof.
  transitivity (let! a := make_prbs_extXOR (N.of_nat 15) L SeedNone in
                let! b := make_prbs_extXOR (N.of_nat 23) L SeedNone in
                @Err (list (list bool)) IndexError); [unfold PRBSBits; cbn -[make_prbs_extXOR];
                  destruct (make_prbs_extXOR 15 L SeedNone); [|reflexivity]; cbn -[make_prbs_extXOR];
                  destruct (make_prbs_extXOR 23 L SeedNone); reflexivity|].
  rewrite !make_none by (cbn; tauto). rewrite !make_int; try (cbn; tauto); reflexivity.
Qed.

(** ** C11 *)
Lemma c11 order L seed : exists e, make_prbs_intXOR order L seed = Err e /\ (In order [7; 15; 23; 31]%N -> 
   (forall b, seed = SeedBits b -> length b < 64) -> e = TypeError).
Proof.
  unfold make_prbs_intXOR. destruct (int_mask order) as [mask|] eqn:Em.
  - destruct seed as [|s|b]; cbn [resolve_seed].
    + unfold bool2bin. rewrite repeat_length. destruct (Nat.ltb_spec (N.to_nat order) 64); cbn [bind call_prbs_int].
      * eexists; split; [reflexivity|auto].
      * eexists; split; [reflexivity|]. intros [<-|[<-|[<-|[<-|[]]]]]; lia.
    + eexists; split; [reflexivity|auto].
    + unfold bool2bin. destruct (Nat.ltb_spec (length b) 64); cbn [bind call_prbs_int].
      * eexists; split; [reflexivity|auto].
      * eexists; split; [reflexivity|]. intros _ Hb. specialize (Hb b eq_refl). lia.
  - eexists; split; [reflexivity|]. intros H _. exfalso.
    destruct H as [<-|[<-|[<-|[<-|[]]]]]; discriminate.
Qed.

(** the internal XOR register when it is called with all four arguments *)
Definition ireg (mask n s : N) (i : nat) : N := Nat.iter i (fun st => snd (int_step mask n st)) s.

Lemma testbit_high x n j : (x < 2 ^ n)%N -> (n <= j)%N -> N.testbit x j = false.
Proof. intros Hx Hj. rewrite <- (N.mod_small _ _ Hx). now apply N.mod_pow2_bits_high. Qed.

Lemma int_step_bits n t s : (1 <= t < n)%N -> (s < 2 ^ n)%N ->
  fst (int_step (2 ^ n + 2 ^ t + 1) n s) = N.b2n (N.testbit s (n - 1)) /\
  (snd (int_step (2 ^ n + 2 ^ t + 1) n s) < 2 ^ n)%N /\
  forall j, (j < n)%N -> N.testbit (snd (int_step (2 ^ n + 2 ^ t + 1) n s)) j =
     xorb (if (j =? 0)%N then false else N.testbit s (j - 1)) (N.testbit s (n - 1) && ((j =? t) || (j =? 0))%N).
Proof.
  intros Ht Hs. unfold int_step. cbn [fst snd].
  assert (Ex : N.shiftr (N.shiftl s 1) n = N.b2n (N.testbit s (n - 1))).
  { apply N.bits_inj. intros j. rewrite N.shiftr_spec by lia. rewrite N.shiftl_spec_high' by lia.
    destruct (N.eq_dec j 0) as [->|H].
    - rewrite N.add_0_l. destruct (N.testbit s (n - 1)); reflexivity.
    - rewrite (testbit_high s n) by (try assumption; lia).
      destruct (N.testbit s (n - 1)); cbn [N.b2n]; [|now rewrite N.bits_0].
      symmetry. change 1%N with (2 ^ 0)%N. apply N.pow2_bits_false. lia. }
  rewrite Ex.
  assert (Em : forall j, N.testbit (2 ^ n + 2 ^ t + 1) j = ((j =? n) || (j =? t) || (j =? 0))%N).
  { intros j.
    assert (E1 : (2 ^ n + 2 ^ t + 1 = N.lxor (2 ^ n) (N.lxor (2 ^ t) 1))%N).
    { assert (Hl : (2 ^ t + 1 = N.lxor (2 ^ t) 1)%N).
      { apply N.add_nocarry_lxor. apply N.bits_inj. intros i. rewrite N.land_spec, N.bits_0.
        change 1%N with (2 ^ 0)%N. destruct (N.eq_dec i 0) as [->|H].
        - rewrite N.pow2_bits_false by lia. reflexivity.
        - rewrite (N.pow2_bits_false 0) by lia. apply andb_false_r. }
      rewrite <- N.add_assoc, Hl. apply N.add_nocarry_lxor.
      apply N.bits_inj. intros i. rewrite N.land_spec, N.lxor_spec, N.bits_0. change 1%N with (2 ^ 0)%N.
      destruct (N.eq_dec i n) as [->|H].
      - rewrite (N.pow2_bits_false t), (N.pow2_bits_false 0) by lia. apply andb_false_r.
      - rewrite N.pow2_bits_false by lia. reflexivity. }
    rewrite E1, !N.lxor_spec. change 1%N with (2 ^ 0)%N. rewrite !N.pow2_bits_eqb.
    rewrite (N.eqb_sym n j), (N.eqb_sym t j), (N.eqb_sym 0 j).
    destruct (N.eqb_spec j n), (N.eqb_spec j t), (N.eqb_spec j 0); subst; try reflexivity; lia. }
  assert (Est : (if negb (N.b2n (N.testbit s (n - 1)) =? 0)%N then N.lxor (N.shiftl s 1) (2 ^ n + 2 ^ t + 1) else N.shiftl s 1)
     = N.lxor (N.shiftl s 1) (if N.testbit s (n - 1) then 2 ^ n + 2 ^ t + 1 else 0)).
  { destruct (N.testbit s (n - 1)); [reflexivity|]. cbn [N.b2n N.eqb negb]. now rewrite N.lxor_0_r. }
  rewrite Est.
  assert (Hbit : forall j, N.testbit (N.lxor (N.shiftl s 1) (if N.testbit s (n - 1) then 2 ^ n + 2 ^ t + 1 else 0)) j
     = xorb (if (j =? 0)%N then false else N.testbit s (j - 1)) (N.testbit s (n - 1) && ((j =? n) || (j =? t) || (j =? 0))%N)).
  { intros j. rewrite N.lxor_spec. f_equal.
    - destruct (N.eqb_spec j 0) as [->|H]; [apply N.shiftl_spec_low; lia|]. rewrite N.shiftl_spec_high' by lia. reflexivity.
    - destruct (N.testbit s (n - 1)); [apply Em|apply N.bits_0]. }
  split; [reflexivity|]. split.
  - match goal with |- (?x < _)%N => assert (E : x = (x mod 2 ^ n)%N) end.
    + apply N.bits_inj. intros j. destruct (N.lt_ge_cases j n) as [H|H]; [now rewrite N.mod_pow2_bits_low|].
      rewrite N.mod_pow2_bits_high, Hbit by assumption.
      destruct (N.eqb_spec j 0); [lia|]. destruct (N.eqb_spec j n) as [->|H1].
      * cbn [orb]. rewrite andb_true_r, xorb_nilpotent. reflexivity.
      * rewrite (testbit_high s n (j - 1)) by (try assumption; lia).
        destruct (N.eqb_spec j t); [lia|]. cbn [orb]. rewrite andb_false_r. reflexivity.
    + rewrite E. apply N.mod_lt, N.pow_nonzero. lia.
  - intros j Hj. rewrite Hbit. destruct (N.eqb_spec j n); [lia|]. reflexivity.
Qed.

Section IntReg.
Variables n t s : N.
Hypothesis Ht : (1 <= t < n)%N.
Hypothesis Hs : (s < 2 ^ n)%N.
Notation mask := (2 ^ n + 2 ^ t + 1)%N.
Notation r := (ireg mask n s).
Definition iout (i : nat) : bool := N.testbit (r i) (n - 1).

Lemma ireg_S i : r (S i) = snd (int_step mask n (r i)). Proof. reflexivity. Qed.
Lemma ireg_lt i : (r i < 2 ^ n)%N.
Proof. induction i as [|i IH]; [exact Hs|]. rewrite ireg_S. now apply int_step_bits. Qed.
Lemma ireg_bit i j : (j < n)%N -> N.testbit (r (S i)) j =
  xorb (if (j =? 0)%N then false else N.testbit (r i) (j - 1)) (iout i && ((j =? t) || (j =? 0))%N).
Proof. intros Hj. rewrite ireg_S. apply int_step_bits; try assumption. apply ireg_lt. Qed.

Lemma ireg_up i d j : (t <= j)%N -> (j + N.of_nat d < n)%N -> N.testbit (r (i + d)) (j + N.of_nat d) = N.testbit (r i) j.
Proof.
  intros Hj. induction d as [|d IH]; intros H.
  - rewrite N.add_0_r, Nat.add_0_r. reflexivity.
  - replace (i + S d) with (S (i + d)) by lia. rewrite ireg_bit by assumption.
    destruct (N.eqb_spec (j + N.of_nat (S d)) 0); [lia|]. destruct (N.eqb_spec (j + N.of_nat (S d)) t); [lia|].
    cbn [orb]. rewrite andb_false_r, xorb_false_r. replace (j + N.of_nat (S d) - 1)%N with (j + N.of_nat d)%N by lia.
    apply IH. lia.
Qed.
Lemma ireg_low i d : (N.of_nat d < t)%N -> N.testbit (r (i + d)) (N.of_nat d) = N.testbit (r i) 0.
Proof.
  induction d as [|d IH]; intros H.
  - rewrite Nat.add_0_r. reflexivity.
  - replace (i + S d) with (S (i + d)) by lia. rewrite ireg_bit by lia.
    destruct (N.eqb_spec (N.of_nat (S d)) 0); [lia|]. destruct (N.eqb_spec (N.of_nat (S d)) t); [lia|].
    cbn [orb]. rewrite andb_false_r, xorb_false_r. replace (N.of_nat (S d) - 1)%N with (N.of_nat d)%N by lia.
    apply IH. lia.
Qed.

Lemma iout_rec i : iout (i + N.to_nat n) = xorb (iout (i + N.to_nat t)) (iout i).
Proof.
  unfold iout at 1.
  pose proof (ireg_up (i + S (N.to_nat t)) (N.to_nat (n - 1 - t)) t ltac:(lia) ltac:(lia)) as E.
  replace (t + N.of_nat (N.to_nat (n - 1 - t)))%N with (n - 1)%N in E by lia.
  replace (i + S (N.to_nat t) + N.to_nat (n - 1 - t)) with (i + N.to_nat n) in E by lia.
  rewrite E. replace (i + S (N.to_nat t)) with (S (i + N.to_nat t)) by lia.
  rewrite ireg_bit by lia. destruct (N.eqb_spec t 0); [lia|]. rewrite N.eqb_refl. cbn [orb]. rewrite andb_true_r, xorb_comm. f_equal.
  pose proof (ireg_low (S i) (N.to_nat (t - 1)) ltac:(lia)) as E2.
  replace (N.of_nat (N.to_nat (t - 1))) with (t - 1)%N in E2 by lia.
  replace (S i + N.to_nat (t - 1)) with (i + N.to_nat t) in E2 by lia.
  rewrite E2, ireg_bit by lia. destruct (N.eqb_spec 0 t); [lia|]. cbn. destruct (iout i); reflexivity.
Qed.

Lemma prbs_int_iout L : prbs_int s mask n L = map (fun i => N.b2n (iout i)) (seq 0 L).
Proof.
  assert (K : forall L k, prbs_int (r k) mask n L = map (fun i => N.b2n (iout i)) (seq k L)).
  { clear L. induction L as [|L IH]; intros k; [reflexivity|]. cbn [prbs_int seq map].
    destruct (int_step mask n (r k)) as [x st] eqn:E.
    destruct (int_step_bits n t (r k) Ht (ireg_lt k)) as [E1 _]. rewrite E in E1. cbn [fst] in E1. rewrite E1.
    change st with (snd (x, st)). rewrite <- E, <- ireg_S, IH. reflexivity. }
  exact (K L 0).
Qed.
End IntReg.


Lemma c11_int order L s mask out : In order prbs_orders -> (s < 2 ^ N.of_nat order)%N ->
  int_mask (N.of_nat order) = Some mask ->
  call_prbs_int [s; mask; N.of_nat order; N.of_nat L] = Ok out ->
  length out = L /\ Forall (fun x => x = 0%N \/ x = 1%N) out /\
  forall i, order <= i < L -> exists a b,
    nth_error out (i - order) = Some a /\ nth_error out (i - order + snd (prbs_taps order)) = Some b /\
    nth_error out i = Some (N.lxor a b).
Proof.
  intros Ho Hs Em E. cbn [call_prbs_int] in E. rewrite Nat2N.id in E. injection E as <-.
  set (n := N.of_nat order) in *.
  assert (K : exists t, N.to_nat t = snd (prbs_taps order) /\ (1 <= t < n)%N /\ mask = (2 ^ n + 2 ^ t + 1)%N).
  { exists (N.of_nat (snd (prbs_taps order))). rewrite Nat2N.id. split; [reflexivity|].
    unfold n in *. destruct Ho as [<-|[<-|[<-|[<-|[]]]]]; vm_compute in Em; injection Em as <-;
      (split; [cbn; lia|reflexivity]). }
  destruct K as (t & Et & Ht & ->). rewrite <- Et. rewrite prbs_int_iout by assumption.
  split; [now rewrite map_length, seq_length|]. split.
  - apply Forall_map, Forall_forall. intros i _. destruct (iout n t s i); auto.
  - intros i Hi. assert (En : order = N.to_nat n) by (unfold n; lia).
    exists (N.b2n (iout n t s (i - order))), (N.b2n (iout n t s (i - order + N.to_nat t))).
    rewrite !nth_error_map_seq by lia. cbn [Nat.add].
    split; [reflexivity|]. split; [reflexivity|]. f_equal.
    pose proof (iout_rec n t s Ht Hs (i - order)) as R.
    replace (i - order + N.to_nat n) with i in R by lia. rewrite R.
    destruct (iout n t s (i - order)), (iout n t s (i - order + N.to_nat t)); reflexivity.
Qed.
