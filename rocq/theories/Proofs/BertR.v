(** QPSKfromBERT: how often every point occurs. *)
From Coq Require Import List NArith ZArith Arith Bool Lia Reals Lra Permutation.
From Verif Require Import Common.Py Common.Cplx Common.ListX Model.Helpers Model.Gray Model.Constellation Model.Decision Model.Prbs Model.Classes
  Spec.BitSeq Spec.BertS Proofs.PrbsP Proofs.PrbsQ Proofs.BertP Proofs.BertQ.
Import ListNotations.

Lemma qpsk_inj a b a' b' : qpsk_point a b = qpsk_point a' b' -> a = a' /\ b = b'.
Proof.
  unfold qpsk_point, quadrature. intros E. apply pair_equal_spec in E as (E1 & E2).
  assert (0 < / sqrt 2)%R by (apply Rinv_0_lt_compat, sqrt_lt_R0; lra).
  destruct a, a', b, b'; split; try reflexivity; lra.
Qed.
Lemma count_points x n f g a b : length x = n -> (forall k, k < n -> nth_error x k = Some (qpsk_point (f k) (g k))) ->
  count_occ Ceq_dec x (qpsk_point a b) = occurrences (fun k => Bool.eqb (f k) a && Bool.eqb (g k) b) n.
Proof.
  intros L. subst n. unfold occurrences. revert f g.
  induction x as [|z x IH]; intros f g H; [reflexivity|]. cbn [length seq filter count_occ].
  pose proof (H 0 ltac:(cbn; lia)) as H0. cbn in H0. assert (Ez : z = qpsk_point (f 0) (g 0)) by congruence.
  rewrite <- seq_shift. specialize (IH (fun k => f (S k)) (fun k => g (S k)) ltac:(intros k Hk; apply (H (S k)); cbn; lia)).
  rewrite IH. destruct (Ceq_dec z (qpsk_point a b)) as [E|E].
  - rewrite Ez in E. apply qpsk_inj in E as (-> & ->). rewrite !eqb_reflx. cbn [andb length]. rewrite filter_map_length. reflexivity.
  - destruct (Bool.eqb (f 0) a && Bool.eqb (g 0) b) eqn:B; [|rewrite filter_map_length; reflexivity].
    apply andb_true_iff in B as (B1 & B2). apply eqb_prop in B1, B2. congruence.
Qed.
Lemma shift_perm P s : 0 < P -> Permutation (map (fun k => Z.to_nat ((Z.of_nat k - s) mod Z.of_nat P)) (seq 0 P)) (seq 0 P).
Proof.
  intros HP. apply NoDup_Permutation_bis.
  - assert (Q : forall l, NoDup l -> (forall i, In i l -> i < P) -> NoDup (map (fun k => Z.to_nat ((Z.of_nat k - s) mod Z.of_nat P)) l)).
    { induction l as [|i l IH]; intros N B; [constructor|]. inversion N as [|? ? Ni Nl]; subst. cbn [map]. constructor.
      - intros Hi. apply in_map_iff in Hi as (j & E & Hj). apply Ni. replace i with j; [exact Hj|].
        assert (Bi := B i (or_introl eq_refl)). assert (Bj := B j (or_intror Hj)).
        pose proof (Z.mod_pos_bound (Z.of_nat j - s) (Z.of_nat P) ltac:(lia)). pose proof (Z.mod_pos_bound (Z.of_nat i - s) (Z.of_nat P) ltac:(lia)).
        assert (Em : ((Z.of_nat j - s) mod Z.of_nat P = (Z.of_nat i - s) mod Z.of_nat P)%Z) by lia.
        pose proof (Z.div_mod (Z.of_nat j - s) (Z.of_nat P) ltac:(lia)). pose proof (Z.div_mod (Z.of_nat i - s) (Z.of_nat P) ltac:(lia)).
        assert ((Z.of_nat P * ((Z.of_nat j - s) / Z.of_nat P - (Z.of_nat i - s) / Z.of_nat P) = Z.of_nat j - Z.of_nat i)%Z) as Eq by lia.
        remember ((Z.of_nat j - s) / Z.of_nat P - (Z.of_nat i - s) / Z.of_nat P)%Z as q. clear - Eq Bi Bj.
        destruct (Z.lt_trichotomy q 0) as [X|[-> |X]]; [|lia|]; exfalso; [assert (Z.of_nat P * q <= - Z.of_nat P)%Z by nia|assert (Z.of_nat P <= Z.of_nat P * q)%Z by nia]; lia.
      - apply IH; [exact Nl|]. intros j Hj. apply B. right. exact Hj. }
    apply Q; [apply seq_NoDup|]. intros i Hi. apply in_seq in Hi. lia.
  - rewrite map_length. lia.
  - intros y Hy. apply in_map_iff in Hy as (k & <- & Hk). apply in_seq.
    pose proof (Z.mod_pos_bound (Z.of_nat k - s) (Z.of_nat P) ltac:(lia)). lia.
Qed.
Lemma shift_pairs P (f : nat -> bool) sI sQ (h : bool -> bool -> bool) : 0 < P -> (forall i, i < P -> f (i + P) = f i) ->
  occurrences (fun k => h (f (Z.to_nat ((Z.of_nat k - sI) mod Z.of_nat P))) (f (Z.to_nat ((Z.of_nat k - sQ) mod Z.of_nat P)))) P
  = occurrences (fun i => h (f i) (f (Z.to_nat ((sI - sQ) mod Z.of_nat P) + i))) P.
Proof.
  intros HP Per. unfold occurrences at 2. rewrite <- (filter_perm _ _ _ (shift_perm P sI HP)), filter_map_length. apply occurrences_ext.
  intros k Hk. f_equal.
  set (d := Z.to_nat ((sI - sQ) mod Z.of_nat P)). set (i := Z.to_nat ((Z.of_nat k - sI) mod Z.of_nat P)). set (j := Z.to_nat ((Z.of_nat k - sQ) mod Z.of_nat P)).
  pose proof (Z.mod_pos_bound (sI - sQ) (Z.of_nat P) ltac:(lia)) as Bd.
  pose proof (Z.mod_pos_bound (Z.of_nat k - sI) (Z.of_nat P) ltac:(lia)) as Bi. pose proof (Z.mod_pos_bound (Z.of_nat k - sQ) (Z.of_nat P) ltac:(lia)) as Bq.
  assert (Ej : Z.of_nat j = ((Z.of_nat (d + i)) mod Z.of_nat P)%Z).
  { unfold j, d, i. rewrite Nat2Z.inj_add, !Z2Nat.id by lia. rewrite <- Z.add_mod by lia. f_equal. lia. }
  assert (Bdi : d < P /\ i < P /\ j < P) by (unfold d, i, j; lia). clearbody d i j. clear Bd Bi Bq.
  destruct (le_lt_dec P (d + i)) as [Hw|Hw].
  - assert (Em : (Z.of_nat (d + i) - Z.of_nat P = Z.of_nat (d + i) mod Z.of_nat P)%Z) by (apply (Z.mod_unique _ _ 1); lia).
    replace (d + i) with (j + P) by lia. symmetry. apply Per. lia.
  - rewrite Z.mod_small in Ej by lia. f_equal. lia.
Qed.
Lemma delayed_pairs order out sI sQ : In order prbs_orders -> let P := 2 ^ order - 1 in make_prbs_extXOR (N.of_nat order) P SeedNone = Ok out ->
  ((sI - sQ) mod Z.of_nat P <> 0)%Z -> forall x y,
  occurrences (fun k => Bool.eqb (delayed out sI k) x && Bool.eqb (delayed out sQ k) y) P = 2 ^ (order - 2) - (if x || y then 0 else 1).
Proof.
  intros Ho P E Hd x y. rewrite make_none in E by assumption. set (s := (2 ^ N.of_nat order - 1)%N) in E.
  assert (P1 : 1 <= P). { unfold P. destruct Ho as [<-|[<-|[<-|[<-|[]]]]]; pose proof (Nat.pow_nonzero 2 5); rewrite <- (Nat.pow_succ_r' 2) || idtac; clear; cbn -[Nat.pow].
    all: match goal with |- _ <= 2 ^ ?n - 1 => change n with (S (n - 1)); rewrite Nat.pow_succ_r'; pose proof (Nat.pow_nonzero 2 (n - 1)); lia end. }
  assert (Hs : (0 < s < 2 ^ N.of_nat order)%N). { unfold s. assert (1 < 2 ^ N.of_nat order)%N. { apply N.pow_gt_1; [lia|]. destruct Ho as [<-|[<-|[<-|[<-|[]]]]]; discriminate. } lia. }
  rewrite make_int in E by (try assumption; lia). set (n := N.of_nat order) in *. set (a := fst (taps_of order)) in *. set (b := snd (taps_of order)) in *.
  assert (Eo : out = pbits n a b s P) by congruence. clear E. subst out.
  set (bit i := tapf n a b (reg n a b s i)). assert (LP : length (pbits n a b s P) = P) by (unfold pbits; rewrite map_length, seq_length; reflexivity).
  set (d := Z.to_nat ((sI - sQ) mod Z.of_nat P)). pose proof (Z.mod_pos_bound (sI - sQ) (Z.of_nat P) ltac:(lia)) as Bd.
  assert (Hdd : ~ Nat.divide P d). { intros (q & Eq). destruct q as [|q]; unfold d in Eq; [lia|]. assert (P <= S q * P) by nia. lia. }
  destruct (autocorrelation order s (P + P) (pbits n a b s (P + P)) 0 d Ho Hs ltac:(apply make_int; [assumption|apply Hs]) ltac:(fold P; unfold d; lia) Hdd) as (A1 & A2 & A3 & A4).
  fold P in A1, A2, A3, A4. cbn [Nat.add] in A1, A2, A3, A4.
  destruct (c09 order (P + P) s (pbits n a b s (P + P)) Ho Hs ltac:(apply make_int; [assumption|apply Hs])) as (Per & _). fold P in Per.
  assert (Nb : forall L i, i < L -> nth_error (pbits n a b s L) i = Some (bit i)).
  { intros L i Hi. unfold pbits. rewrite (map_nth_error _ i (seq 0 L) (d := i)); [reflexivity|]. rewrite nth_error_nth' with (d := 0) by (rewrite seq_length; lia). rewrite seq_nth by lia. reflexivity. }
  assert (Pb : forall i, i < P -> bit (i + P) = bit i). { intros i Hi. specialize (Per i ltac:(lia)). rewrite !Nb in Per by lia. congruence. }
  assert (Hc : occurrences (fun k => Bool.eqb (delayed (pbits n a b s P) sI k) x && Bool.eqb (delayed (pbits n a b s P) sQ k) y) P
             = occurrences (fun i => Bool.eqb (nth i (pbits n a b s (P + P)) false) x && Bool.eqb (nth (d + i) (pbits n a b s (P + P)) false) y) P).
  { clear A1 A2 A3 A4 Per Hs. unfold delayed. rewrite LP. assert (Dp : d < P) by (unfold d; lia).
    pose proof (shift_pairs P bit sI sQ (fun u v => Bool.eqb u x && Bool.eqb v y) P1 Pb) as Sh. fold d in Sh. cbv beta in Sh.
    etransitivity; [|etransitivity; [exact Sh|]]; apply occurrences_ext; intros k Hk.
    - pose proof (Z.mod_pos_bound (Z.of_nat k - sI) (Z.of_nat P) ltac:(lia)) as Bi. pose proof (Z.mod_pos_bound (Z.of_nat k - sQ) (Z.of_nat P) ltac:(lia)) as Bq.
      rewrite !nth_pbits by lia. reflexivity.
    - rewrite !nth_pbits by lia. reflexivity. }
  rewrite Hc. destruct x, y; cbn [orb]; rewrite ?Nat.sub_0_r; assumption.
Qed.

Lemma bert_counts dI dQ order sI sQ iI iQ : In order prbs_orders -> let P := 2 ^ order - 1 in ((sI - sQ) mod Z.of_nat P <> 0)%Z ->
  exists bits x, QPSKfromBERT dI dQ P 1 ([N.of_nat order], [N.of_nat order]) (sI, sQ) (iI, iQ) = Ok (bits, [x]) /\ length x = P /\
    forall a b, count_occ Ceq_dec x (qpsk_point a b) = 2 ^ (order - 2) - (if Bool.eqb a iI && Bool.eqb b iQ then 1 else 0).
Proof.
  intros Ho P Hd.
  destruct (bert_samples dI dQ P 1 ([N.of_nat order], [N.of_nat order]) (sI, sQ) (iI, iQ)) as (bits & xs & E & Lb & Lx & H); [lia|cbn; lia|cbn; lia| |].
  { intros i o Hi [Ei|Ei]; destruct i; try lia; cbn in Ei; injection Ei as <-; rewrite Nat2N.id; exact Ho. }
  destruct (H 0 (N.of_nat order) (N.of_nat order) ltac:(lia) eq_refl eq_refl) as (pI & pQ & b0 & x & EI & EQ & _ & Ex & _ & L & S).
  assert (pQ = pI) by congruence. subst pQ. destruct xs as [|x' [|]]; try discriminate. cbn in Ex. assert (x' = x) by congruence. subst x'.
  exists bits, x. split; [exact E|]. split; [exact L|]. intros a b. cbn [fst snd] in S.
  rewrite (count_points x P (fun k => xorb iI (delayed pI sI k)) (fun k => xorb iQ (delayed pI sQ k)) a b L ltac:(intros k Hk; apply (S k Hk))).
  pose proof (delayed_pairs order pI sI sQ Ho EI Hd (xorb iI a) (xorb iQ b)) as C. fold P in C.
  transitivity (2 ^ (order - 2) - (if xorb iI a || xorb iQ b then 0 else 1)).
  - rewrite <- C. apply occurrences_ext. intros k Hk. destruct iI, iQ, a, b, (delayed pI sI k), (delayed pI sQ k); reflexivity.
  - destruct iI, iQ, a, b; reflexivity.
Qed.
Lemma bert_same dI dQ n order s : In order prbs_orders ->
  exists bits x, QPSKfromBERT dI dQ n 1 ([N.of_nat order], [N.of_nat order]) (s, s) (false, false) = Ok (bits, [x]) /\ length x = n /\
    Forall (fun z => z = qpsk_point false false \/ z = qpsk_point true true) x /\ (forall z, In z x -> z <> qpsk_point false true /\ z <> qpsk_point true false).
Proof.
  intros Ho.
  destruct (bert_samples dI dQ n 1 ([N.of_nat order], [N.of_nat order]) (s, s) (false, false)) as (bits & xs & E & Lb & Lx & H); [lia|cbn; lia|cbn; lia| |].
  { intros i o Hi [Ei|Ei]; destruct i; try lia; cbn in Ei; injection Ei as <-; rewrite Nat2N.id; exact Ho. }
  destruct (H 0 (N.of_nat order) (N.of_nat order) ltac:(lia) eq_refl eq_refl) as (pI & pQ & b0 & x & EI & EQ & _ & Ex & _ & L & S).
  assert (pQ = pI) by congruence. subst pQ. destruct xs as [|x' [|]]; try discriminate. cbn in Ex. assert (x' = x) by congruence. subst x'.
  exists bits, x. split; [exact E|]. split; [exact L|].
  assert (A : forall z, In z x -> z = qpsk_point false false \/ z = qpsk_point true true).
  { intros z Hz. apply In_nth_error in Hz as (k & Ek). assert (k < n). { rewrite <- L. apply nth_error_Some. congruence. }
    destruct (S k H0) as (_ & _ & Eq). cbn [fst snd] in Eq. rewrite Ek in Eq. injection Eq as ->. destruct (delayed pI s k); cbn [xorb]; auto. }
  split; [apply Forall_forall; exact A|]. intros z Hz. destruct (A z Hz) as [-> | ->]; split; intros X; apply qpsk_inj in X as (X1 & X2); discriminate.
Qed.
Lemma bert_index dI dQ n shifts inv : QPSKfromBERT dI dQ n 3 ([15; 23; 15]%N, [15; 23; 15]%N) shifts inv = Err IndexError.
Proof. destruct qpsk_mapping as (mp & E & _). unfold QPSKfromBERT. rewrite E. cbn [bind fst snd]. unfold bert_port. rewrite c10_index. reflexivity. Qed.
(** the default orders with two modes: the second mode may be constant *)
Lemma bert_default_modes n : exists draws, draws_ok draws /\ forall shifts, exists bits x,
  QPSKfromBERT draws draws n 2 ([15%N], [15%N]) shifts (false, false) = Ok (bits, [x; repeat (qpsk_point false false) n]).
Proof.
  exists (const_draw 15 0). split. { intros i. cbn. split; [left; reflexivity|reflexivity]. }
  intros (sI, sQ). destruct qpsk_mapping as (mp & E & Ec). unfold QPSKfromBERT. rewrite E. cbn [bind fst snd].
  pose proof (make_none 15 n ltac:(cbn; auto)) as Hn. change (N.of_nat 15) with 15%N in Hn.
  pose proof (c09_zero 15 n ltac:(cbn; auto)) as Hz. change (N.of_nat 15) with 15%N in Hz.
  destruct (c08 15 n (2 ^ 15 - 1)%N ltac:(cbn; auto) ltac:(cbn; lia)) as (out & Eo & Lo & _). change (N.of_nat 15) with 15%N in Eo.
  assert (EP : PRBSBits (const_draw 15 0) n 2 [SeedNone; SeedNone] [15%N] = Ok [out; repeat false n]).
  { unfold PRBSBits. change (prbs_orders_seeds _ _ _ _) with ([15; 15]%N, [SeedNone; SeedInt 0]). cbn [seq mapM getn nth_error bind].
    rewrite Hn. rewrite Eo. cbn [bind]. rewrite Hz. reflexivity. }
  unfold bert_port. rewrite EP. cbn [bind map].
  assert (Er : forall s, roll s (repeat false n) = repeat false n).
  { intros s. apply nth_error_ext. intros k. destruct (le_lt_dec n k) as [H|H].
    - transitivity (@None bool); [|symmetry]; apply nth_error_None; rewrite ?roll_length, repeat_length; exact H.
    - rewrite roll_nth by (rewrite repeat_length; exact H). rewrite repeat_length.
      pose proof (Z.mod_pos_bound (Z.of_nat k - s) (Z.of_nat n) ltac:(lia)).
      rewrite !nth_error_repeat by lia. reflexivity. }
  rewrite !Er. cbn [combine map]. unfold modulate, modulate_arr. cbn [mapM].
  rewrite (modulate_interleave _ _ _ Ec) by (rewrite !roll_length; reflexivity). cbn [bind].
  rewrite (modulate_interleave _ _ _ Ec) by reflexivity. cbn [bind]. eexists. eexists.
  apply (f_equal Ok). apply (f_equal2 pair); [reflexivity|]. apply (f_equal2 cons); [reflexivity|]. apply (f_equal2 cons); [|reflexivity].
  clear. induction n as [|n IH]; [reflexivity|]. cbn [repeat combine map fst snd]. apply (f_equal2 cons); [reflexivity|exact IH].
Qed.
