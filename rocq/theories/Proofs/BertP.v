(** Balance and correlation of maximum length sequences. *)
From Coq Require Import List NArith ZArith Arith Bool Lia Permutation.
From Verif Require Import Common.Py Model.Prbs Spec.BitSeq Spec.BertS Proofs.PrbsP Proofs.PrbsQ.
Import ListNotations.

Lemma count_split {A} (f g : A -> bool) l :
  length (filter f l) = length (filter (fun i => f i && g i) l) + length (filter (fun i => f i && negb (g i)) l) /\
  length (filter g l) = length (filter (fun i => f i && g i) l) + length (filter (fun i => negb (f i) && g i) l) /\
  length (filter (fun i => xorb (f i) (g i)) l) = length (filter (fun i => f i && negb (g i)) l) + length (filter (fun i => negb (f i) && g i) l) /\
  length l = length (filter (fun i => f i && g i) l) + length (filter (fun i => f i && negb (g i)) l) +
             length (filter (fun i => negb (f i) && g i) l) + length (filter (fun i => negb (f i) && negb (g i)) l).
Proof. induction l as [|x l IH]; [repeat split|]. cbn [filter length]. destruct (f x), (g x); cbn [andb negb xorb length]; lia. Qed.
Lemma filter_map_length {A B} (f : A -> B) (p : B -> bool) l : length (filter p (map f l)) = length (filter (fun x => p (f x)) l).
Proof. induction l as [|x l IH]; [reflexivity|]. cbn [map filter]. destruct (p (f x)); cbn [length]; rewrite IH; reflexivity. Qed.
Lemma filter_perm {A} (p : A -> bool) l m : Permutation l m -> length (filter p l) = length (filter p m).
Proof. induction 1; cbn [filter]; try lia; repeat match goal with |- context [if ?c then _ else _] => destruct c end; cbn [length]; lia. Qed.
Lemma odd_count m : length (filter Nat.odd (seq 0 (2 * m))) = m.
Proof.
  induction m as [|m IH]; [reflexivity|]. replace (2 * S m) with (2 * m + 2) by lia. rewrite seq_app, filter_app, app_length, IH.
  change (seq (0 + 2 * m) 2) with [2 * m; S (2 * m)]. cbn [filter]. rewrite Nat.odd_succ. rewrite Nat.even_mul. cbn [Nat.even orb].
  rewrite <- Nat.negb_even, Nat.even_mul. cbn [Nat.even orb negb length]. lia.
Qed.
Lemma odd_count1 m : length (filter Nat.odd (seq 1 (2 * m - 1))) = m.
Proof.
  destruct m as [|m]; [reflexivity|]. pose proof (odd_count (S m)) as H. replace (2 * S m) with (S (2 * S m - 1)) in H by lia. exact H.
Qed.

Section Count.
Context {n a b : N} {P : positive} {ps : list N}.
Hypothesis G : good n a b P ps.
Lemma pow_two : exists K, Pos.to_nat P = 2 * K - 1 /\ K = 2 ^ (N.to_nat n - 1).
Proof.
  exists (2 ^ (N.to_nat n - 1)). split; [|reflexivity]. destruct G as (H1 & _ & _ & HP & _).
  assert (E : 2 * 2 ^ (N.to_nat n - 1) = N.to_nat (2 ^ n)).
  { rewrite N2Nat.inj_pow. change (N.to_nat 2) with 2. rewrite <- Nat.pow_succ_r'. f_equal. lia. }
  rewrite E. lia.
Qed.
Lemma ones s : (s < 2 ^ n)%N -> s <> 0%N -> length (filter (fun i => tapf n a b (reg n a b s i)) (seq 0 (Pos.to_nat P))) = 2 ^ (N.to_nat n - 1).
Proof.
  intros Hs H0. destruct G as (H1 & _ & _ & HP & _). set (s' := reg n a b s (N.to_nat n)).
  assert (Hs' : (s' < 2 ^ n)%N) by (apply reg_lt; assumption). assert (H0' : s' <> 0%N) by (apply (reg_nonzero G); assumption).
  transitivity (length (filter (fun y => N.odd y) (map (reg n a b s') (seq 0 (Pos.to_nat P))))).
  { rewrite filter_map_length. f_equal. apply filter_ext. intros i. rewrite out_sbit by assumption. unfold sbit. rewrite N.bit0_odd. f_equal.
    unfold s'. rewrite <- reg_shift. f_equal. lia. }
  assert (Pm : Permutation (map (reg n a b s') (seq 0 (Pos.to_nat P))) (map N.of_nat (seq 1 (Pos.to_nat P)))).
  { apply NoDup_Permutation.
    - assert (ND : forall l, NoDup l -> (forall i, In i l -> i < Pos.to_nat P) -> NoDup (map (reg n a b s') l)).
      { clear -G Hs' H0'. induction l as [|i l IH]; intros N B; [constructor|]. inversion N as [|? ? Ni Nl]; subst. cbn [map]. constructor.
        - intros Hi. apply in_map_iff in Hi as (j & E & Hj). apply Ni. rewrite <- (reg_inj G s' Hs' H0' j i); [exact Hj| | |exact E]; apply B; [right; exact Hj|left; reflexivity].
        - apply IH; [exact Nl|]. intros j Hj. apply B. right. exact Hj. }
      apply ND; [apply seq_NoDup|]. intros i Hi. apply in_seq in Hi. lia.
    - apply FinFun.Injective_map_NoDup; [intros x y; apply Nat2N.inj|apply seq_NoDup].
    - intros y. split; intros Hy.
      + apply in_map_iff in Hy as (i & <- & _). pose proof (reg_lt n a b s' i H1 Hs') as L. pose proof (reg_nonzero G s' Hs' H0' i) as Z.
        apply in_map_iff. exists (N.to_nat (reg n a b s' i)). split; [apply N2Nat.id|]. apply in_seq. lia.
      + apply in_map_iff in Hy as (k & <- & Hk). apply in_seq in Hk.
        destruct (reg_surj G s' Hs' H0' (N.of_nat k)) as (i & Li & Ei); [lia|lia|]. apply in_map_iff. exists i. split; [exact Ei|]. apply in_seq. lia. }
  rewrite (filter_perm _ _ _ Pm), filter_map_length. destruct pow_two as (K & EP & EK). rewrite EP, <- EK.
  rewrite <- (odd_count1 K) at 2. f_equal. apply filter_ext. intros k. rewrite <- Nat.negb_even, <- N.negb_even. f_equal.
  destruct (Nat.even k) eqn:E; [apply Nat.even_spec in E as (q & ->)|].
  - apply N.even_spec. exists (N.of_nat q). lia.
  - assert (O : Nat.odd k = true) by (rewrite <- Nat.negb_even, E; reflexivity). apply Nat.odd_spec in O as (q & ->).
    apply not_true_iff_false. intros X. apply N.even_spec in X as (r & X). lia.
Qed.
Lemma reg_lxor s t i : reg n a b (N.lxor s t) i = N.lxor (reg n a b s i) (reg n a b t i).
Proof. unfold reg. induction i as [|i IH]; [reflexivity|]. cbn [Nat.iter nat_rect]. unfold Nat.iter in *. cbn. rewrite IH. apply lstep_linear. Qed.
Lemma tapf_lxor x y : tapf n a b (N.lxor x y) = xorb (tapf n a b x) (tapf n a b y).
Proof. unfold tapf. rewrite !N.lxor_spec. destruct (N.testbit x (n - a)), (N.testbit y (n - a)), (N.testbit x (n - b)), (N.testbit y (n - b)); reflexivity. Qed.
Lemma pairs s d : (s < 2 ^ n)%N -> s <> 0%N -> ~ Nat.divide (Pos.to_nat P) d -> (2 <= n)%N ->
  let f i := tapf n a b (reg n a b s i) in let g i := tapf n a b (reg n a b s (i + d)) in
  let c h := length (filter h (seq 0 (Pos.to_nat P))) in let K := 2 ^ (N.to_nat n - 2) in
  c (fun i => f i && g i) = K /\ c (fun i => f i && negb (g i)) = K /\ c (fun i => negb (f i) && g i) = K /\
  c (fun i => negb (f i) && negb (g i)) = K - 1.
Proof.
  intros Hs H0 Hd Hn f g c K. destruct G as (H1 & _ & _ & HP & _).
  assert (Hr : (reg n a b s d < 2 ^ n)%N) by (apply reg_lt; assumption).
  assert (R0 : reg n a b s d <> 0%N) by (apply (reg_nonzero G); assumption).
  assert (Ne : reg n a b s d <> s).
  { intros E. destruct d as [|d]; [apply Hd; exists 0; reflexivity|]. apply Hd. pose proof (reg_eq_mod G s Hs H0 0 (S d) ltac:(lia)) as Dv.
    rewrite Nat.sub_0_r in Dv. apply Dv. rewrite E. reflexivity. }
  assert (Eg : forall i, g i = tapf n a b (reg n a b (reg n a b s d) i)) by (intros i; unfold g; rewrite reg_shift; reflexivity).
  assert (Ex : forall i, xorb (f i) (g i) = tapf n a b (reg n a b (N.lxor s (reg n a b s d)) i)).
  { intros i. rewrite Eg, reg_lxor, tapf_lxor. reflexivity. }
  pose proof (ones s Hs H0) as C1. pose proof (ones _ Hr R0) as C2.
  assert (C3 := ones (N.lxor s (reg n a b s d)) (lxor_lt _ _ _ Hs Hr) ltac:(intros Z; apply N.lxor_eq in Z; congruence)).
  rewrite <- (filter_ext _ _ Eg) in C2. rewrite <- (filter_ext _ _ Ex) in C3. fold f in C1.
  destruct (count_split f g (seq 0 (Pos.to_nat P))) as (S1 & S2 & S3 & S4). rewrite seq_length in S4.
  change (fun i => tapf n a b (reg n a b s i)) with f in C1.
  destruct pow_two as (K2 & EP & EK). assert (E2 : 2 ^ (N.to_nat n - 1) = 2 * K).
  { unfold K. rewrite <- Nat.pow_succ_r'. f_equal. lia. }
  rewrite E2 in *. subst K2. assert (KP : 1 <= K) by (unfold K; pose proof (Nat.pow_nonzero 2 (N.to_nat n - 2)); lia).
  change (fun x => g x) with g in C2. unfold c. lia.
Qed.
End Count.

Lemma nth_pbits n a b s L i : i < L -> nth i (pbits n a b s L) false = tapf n a b (reg n a b s i).
Proof. intros H. unfold pbits. rewrite (nth_indep _ false (tapf n a b (reg n a b s 0))) by (rewrite map_length, seq_length; exact H). rewrite (map_nth (fun i => tapf n a b (reg n a b s i))), seq_nth by exact H. reflexivity. Qed.
Lemma occurrences_ext f g n : (forall i, i < n -> f i = g i) -> occurrences f n = occurrences g n.
Proof.
  intros H. unfold occurrences. f_equal. assert (B : forall i, In i (seq 0 n) -> i < n) by (intros i Hi; apply in_seq in Hi; lia).
  induction (seq 0 n) as [|x l IH]; [reflexivity|]. cbn [filter]. rewrite H by (apply B; left; reflexivity). rewrite IH by (intros i Hi; apply B; right; exact Hi). reflexivity.
Qed.
Lemma balance order s L out j : In order prbs_orders -> (0 < s < 2 ^ N.of_nat order)%N -> make_prbs_extXOR (N.of_nat order) L (SeedInt s) = Ok out ->
  let P := 2 ^ order - 1 in j + P <= L -> occurrences (fun i => nth (j + i) out false) P = 2 ^ (order - 1).
Proof.
  intros Ho (H0 & Hs) E P HL. rewrite make_int in E by assumption.
  assert (Eo : out = pbits (N.of_nat order) (fst (taps_of order)) (snd (taps_of order)) s L) by congruence. clear E. subst out. destruct (good_orders order Ho) as (Q & ps & G & EQ).
  set (n := N.of_nat order) in *. set (a := fst (taps_of order)) in *. set (b := snd (taps_of order)) in *.
  assert (H1 : (1 <= n)%N) by exact (proj1 G).
  pose proof (ones G (reg n a b s j) (reg_lt n a b s j H1 Hs) (reg_nonzero G s Hs ltac:(lia) j)) as C.
  replace (N.to_nat n) with order in C by (symmetry; apply Nat2N.id). rewrite <- C. fold P in EQ. rewrite EQ. apply occurrences_ext.
  intros i Hi. rewrite nth_pbits by lia. rewrite <- reg_shift. f_equal. f_equal. lia.
Qed.
Lemma autocorrelation order s L out j d : In order prbs_orders -> (0 < s < 2 ^ N.of_nat order)%N -> make_prbs_extXOR (N.of_nat order) L (SeedInt s) = Ok out ->
  let P := 2 ^ order - 1 in j + d + P <= L -> ~ Nat.divide P d ->
  let pairs x y := occurrences (fun i => Bool.eqb (nth (j + i) out false) x && Bool.eqb (nth (j + d + i) out false) y) P in
  pairs true true = 2 ^ (order - 2) /\ pairs true false = 2 ^ (order - 2) /\ pairs false true = 2 ^ (order - 2) /\ pairs false false = 2 ^ (order - 2) - 1.
Proof.
  intros Ho (H0 & Hs) E P HL Hd pr. rewrite make_int in E by assumption.
  assert (Eo : out = pbits (N.of_nat order) (fst (taps_of order)) (snd (taps_of order)) s L) by congruence. clear E. subst out. destruct (good_orders order Ho) as (Q & ps & G & EQ). fold P in EQ.
  set (n := N.of_nat order) in *. set (a := fst (taps_of order)) in *. set (b := snd (taps_of order)) in *.
  assert (H1 : (1 <= n)%N) by exact (proj1 G).
  assert (H2 : (2 <= n)%N). { unfold n. destruct Ho as [<-|[<-|[<-|[<-|[]]]]]; cbv; discriminate. }
  pose proof (pairs G (reg n a b s j) d (reg_lt n a b s j H1 Hs) (reg_nonzero G s Hs ltac:(lia) j) ltac:(rewrite EQ; exact Hd) H2) as C.
  cbv zeta in C.
  assert (F : forall i, i < P -> nth (j + i) (pbits n a b s L) false = tapf n a b (reg n a b (reg n a b s j) i)).
  { intros i Hi. rewrite nth_pbits by lia. rewrite <- reg_shift. f_equal. f_equal. lia. }
  assert (F2 : forall i, i < P -> nth (j + d + i) (pbits n a b s L) false = tapf n a b (reg n a b (reg n a b s j) (i + d))).
  { intros i Hi. rewrite nth_pbits by lia. rewrite <- reg_shift. f_equal. f_equal. lia. }
  replace (N.to_nat n) with order in C by (symmetry; apply Nat2N.id). rewrite EQ in C. destruct C as (C1 & C2 & C3 & C4).
  unfold pr. split; [etransitivity; [|exact C1]|split; [etransitivity; [|exact C2]|split; [etransitivity; [|exact C3]|etransitivity; [|exact C4]]]].
  all: apply occurrences_ext; intros i Hi; rewrite (F i Hi), (F2 i Hi);
    destruct (tapf n a b (reg n a b (reg n a b s j) i)), (tapf n a b (reg n a b (reg n a b s j) (i + d))); reflexivity.
Qed.
