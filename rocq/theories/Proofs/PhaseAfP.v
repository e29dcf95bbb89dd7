(** Blind phase search in blocks: proofs. *)
From Coq Require Import String List Arith ZArith Lia Reals Lra.
From Verif Require Import Common.Py Common.ListX Common.Cplx Common.SumX Common.Angle Model.Decision Model.Quality
  Model.Pilots Model.Phase Model.PhaseAf Spec.Seq Spec.Equal Spec.PhaseSpec Proofs.DecisionP Proofs.PhaseP Proofs.PhaseQ.
Import ListNotations.
Local Open Scope R_scope.

Lemma cs_rows M c n : match map (fun t => frow M (c t)) (seq 0 n) with [] => [] | d :: l => d :: cumsum_rows d l end
  = map (fun t => frow M (fun k => rsum (S t) (fun j => c j k))) (seq 0 n).
Proof.
  destruct n as [|n]; [reflexivity|]. cbn [seq map]. rewrite cumsum_rows_ok. apply (f_equal2 cons).
  - apply frow_ext. intros k _. rewrite rsum_S, rsum_0. lra.
  - rewrite <- seq_shift, map_map. apply map_ext. intros u. apply frow_ext. intros k _.
    rewrite (rsum_Sl (S u)). reflexivity.
Qed.
Lemma combine_nth_some {A B} : forall (a : list A) (b : list B) r u v, nth_error a r = Some u -> nth_error b r = Some v ->
  nth_error (combine a b) r = Some (u, v).
Proof.
  induction a as [|a0 a IH]; intros [|b0 b] [|r] u v H1 H2; cbn in *; try discriminate.
  - congruence.
  - apply IH; assumption.
Qed.
Lemma movavg_rows M c n w : (1 <= w)%nat -> (w < n)%nat ->
  movavg_af (map (fun t => frow M (c t)) (seq 0 n)) (Z.of_nat w)
  = Ok (map (fun r => frow M (fun k => rsum w (fun j => c (r + 1 + j)%nat k))) (seq 0 (n - w))).
Proof.
  intros Hw Hn. unfold movavg_af. rewrite cs_rows. cbv zeta.
  set (cs := map (fun t => frow M (fun k => rsum (S t) (fun j => c j k))) (seq 0 n)).
  assert (Hl : length cs = n) by (unfold cs; rewrite map_length, seq_length; reflexivity).
  assert (Hhi : pyslice_from (Z.of_nat w) cs = skipn w cs).
  { unfold pyslice_from. rewrite Hl, clipz_pos, Nat2Z.id by lia. reflexivity. }
  assert (Hlo : pyslice_to (- Z.of_nat w) cs = firstn (n - w) cs).
  { unfold pyslice_to. rewrite Hl. unfold clipz. destruct (Z.ltb_spec (- Z.of_nat w) 0); [|lia]. f_equal. lia. }
  rewrite Hhi, Hlo.
  assert (Lhi : length (skipn w cs) = (n - w)%nat) by (rewrite skipn_length, Hl; reflexivity).
  assert (Llo : length (firstn (n - w) cs) = (n - w)%nat) by (rewrite firstn_length, Hl; lia).
  assert (Hne : forall l : list (list R), length l = (n - w)%nat -> af_nonempty l = Ok l).
  { intros [|x l] H; [cbn in H; lia|reflexivity]. }
  rewrite (Hne _ Lhi), (Hne _ Llo). cbn [bind]. rewrite Lhi, Llo, Nat.eqb_refl. f_equal.
  apply nth_error_ext_lt; [rewrite !map_length, combine_length, Lhi, Llo, seq_length; lia|].
  intros r Hr. rewrite map_length, combine_length, Lhi, Llo in Hr. rewrite nth_error_map_seq by lia. rewrite nth_error_map.
  rewrite (combine_nth_some _ _ r (frow M (fun k => rsum (S (w + r)) (fun j => c j k))) (frow M (fun k => rsum (S r) (fun j => c j k)))).
  - cbn [option_map fst snd]. rewrite row_op_frow. f_equal. apply frow_ext. intros k _.
    replace (S (w + r)) with (S r + w)%nat by lia. rewrite rsum_app.
    rewrite (rsum_ext w (fun i => c (S r + i)%nat k) (fun j => c (0 + r + 1 + j)%nat k)); [lra|]. intros j _. f_equal. lia.
  - rewrite nth_error_skipn'. unfold cs. rewrite nth_error_map_seq by lia. reflexivity.
  - rewrite nth_error_firstn_lt by lia. unfold cs. rewrite nth_error_map_seq by lia. reflexivity.
Qed.
Lemma map_seq_shift {A} (f : nat -> A) s n : map f (seq s n) = map (fun t => f (s + t)%nat) (seq 0 n).
Proof.
  apply nth_error_ext_lt; [rewrite !map_length, !seq_length; reflexivity|]. intros i Hi. rewrite map_length, seq_length in Hi.
  rewrite !nth_error_map_seq by exact Hi. reflexivity.
Qed.

Lemma split_blocks L B N q m : (L = B * q + m)%nat -> (m < B)%nat -> (B + N < L)%nat -> (N < B)%nat -> m <> N ->
  exists K R, (if (Z.of_nat m <? Z.of_nat N)%Z then (Z.of_nat m + Z.of_nat B, Z.of_nat q - 1)%Z else (Z.of_nat m, Z.of_nat q)) = (Z.of_nat R, Z.of_nat K)
    /\ (L = K * B + R)%nat /\ (N < R)%nat /\ (1 <= K)%nat /\ (B <= K * B)%nat.
Proof.
  intros H1 H2 H3 H4 H5. destruct (Z.ltb_spec (Z.of_nat m) (Z.of_nat N)) as [H|H].
  - destruct q as [|[|q]]; [lia|lia|]. exists (S q), (m + B)%nat. split; [f_equal; lia|].
    rewrite (Nat.mul_comm B) in H1. cbn [Nat.mul] in *. lia.
  - destruct q as [|q]; [lia|]. exists (S q), m. split; [reflexivity|].
    rewrite (Nat.mul_comm B) in H1. cbn [Nat.mul] in *. lia.
Qed.

Section Blocks.
Variables (E : list C) (ta : list (list R)) (M : nat) (symbols : list C) (N : nat) (c : nat -> nat -> R).
Hypothesis (Ha : angles_for ta (length E) M).
Hypothesis (Hc : decision_costs E ta M symbols c).
Hypothesis (HM : (1 <= M)%nat).
Hypothesis (HN : (1 <= N)%nat).
Let L := length E.
Let ee (t : nat) : list C := map (fun k => nth t E C0 * Cexpi (test_angle ta t k))%C (seq 0 M).

Lemma af_rows : (if (length ta =? 1)%nat then let! r := getn ta 0 in Ok (repeat r L)
                 else if (length ta =? L)%nat then Ok ta else Err ValueError)
                = Ok (map (fun t => frow M (test_angle ta t)) (seq 0 L)).
Proof.
  unfold L. destruct (Nat.eq_dec (length E) 0) as [H0|H0].
  - rewrite H0 in *. cbn [seq map repeat]. destruct Ha as [[Hl Hr]|[Hl Hr]].
    + destruct ta as [|r [|r' ta']]; try discriminate. reflexivity.
    + rewrite Hl. cbn. destruct ta; [reflexivity|cbn in Hl; lia].
  - destruct (Nat.eqb_spec (length ta) 1) as [H1|H1].
    + destruct (angle_row ta (length E) M 0 Ha ltac:(lia)) as (r & Hr & Hf).
      assert (Hr0 : nth_error ta 0 = Some r) by (destruct (1 <? length ta)%nat; exact Hr).
      unfold getn. rewrite Hr0. cbn [bind]. f_equal.
      assert (Hc1 : forall t, frow M (test_angle ta t) = r).
      { intros t. rewrite Hf. apply frow_ext. intros k _. unfold test_angle. rewrite H1. reflexivity. }
      rewrite (map_ext _ (fun _ => r)) by (intros t; apply Hc1).
      generalize 0%nat. induction (length E) as [|L' IH]; intros s; [reflexivity|]. cbn. f_equal.
      clear - L'. revert s. induction L' as [|L'' IH]; intros s; [reflexivity|]. cbn. f_equal. apply IH.
    + assert (Hl : length ta = length E) by (destruct Ha as [[Hl _]|[Hl _]]; [lia|exact Hl]).
      rewrite Hl, Nat.eqb_refl. f_equal. apply nth_error_ext_lt; [rewrite map_length, seq_length; exact Hl|].
      intros i Hi. rewrite nth_error_map_seq by lia.
      destruct (angle_row ta (length E) M i Ha ltac:(lia)) as (r & Hr & Hf).
      destruct (Nat.ltb_spec 1 (length ta)); [rewrite Hr, Hf; reflexivity|].
      assert (i = 0%nat) by lia. subst i. rewrite Hr, Hf. reflexivity.
Qed.
Lemma af_ee : map (fun p => map (fun a => fst p * Cexpi a)%C (snd p)) (combine E (map (fun t => frow M (test_angle ta t)) (seq 0 L)))
  = map ee (seq 0 L).
Proof.
  assert (Hcb : combine E (map (fun t => frow M (test_angle ta t)) (seq 0 L)) =
                map (fun t => (nth t E C0, frow M (test_angle ta t))) (seq 0 L)).
  { rewrite <- combine_map_seq. unfold L. rewrite <- list_as_map. reflexivity. }
  rewrite Hcb, map_map. apply map_ext. intros t. cbn [fst snd]. unfold frow, ee. rewrite map_map. reflexivity.
Qed.
(** a block of n rows from row a on gives the choices of the samples a+N .. a+n-N-1 *)
Lemma block_ok a n : (a + n <= L)%nat -> (2 * N < n)%nat ->
  exists am, af_block (map ee (seq a n)) symbols N = Ok am /\ length am = (n - 2 * N)%nat /\
    forall r, (r < n - 2 * N)%nat -> exists k, nth_error am r = Some k /\ first_min (window_cost c N (a + N + r)) M k.
Proof.
  intros H1 H2. unfold af_block. rewrite mapM_map.
  rewrite (mapM_ok _ (fun t => frow M (c t))).
  2:{ intros t Ht. apply in_seq in Ht. unfold ee. rewrite mapM_map.
      apply mapM_ok. intros k Hk. apply in_seq in Hk. apply row_min_least. apply Hc; [fold L; lia|lia]. }
  cbn [bind]. rewrite (map_seq_shift (fun t => frow M (c t))).
  replace (2 * Z.of_nat N)%Z with (Z.of_nat (2 * N)) by lia.
  rewrite (movavg_rows M (fun t => c (a + t)%nat)) by lia. cbn [bind]. rewrite mapM_map.
  set (w := fun r => frow M (fun k => rsum (2 * N) (fun j => c (a + (r + 1 + j))%nat k))).
  set (am := fun r => match argmin (w r) with Ok i => i | Err _ => 0%nat end).
  assert (Hne : forall r, w r <> []).
  { intros r H0. apply (f_equal (@length R)) in H0. unfold w in H0. rewrite frow_length in H0. cbn in H0. lia. }
  rewrite (mapM_ok _ am).
  2:{ intros r _. unfold am. fold (w r). destruct (argmin_ok (w r) (Hne r)) as [i ->]. reflexivity. }
  exists (map am (seq 0 (n - 2 * N))). split; [reflexivity|]. split; [rewrite map_length, seq_length; reflexivity|].
  intros r Hr. exists (am r). split; [rewrite nth_error_map_seq by exact Hr; reflexivity|].
  unfold am. destruct (argmin_ok (w r) (Hne r)) as [i Hi]. rewrite Hi. destruct (argmin_spec _ _ Hi) as (d & K1 & K2 & K3).
  assert (Hw : forall k, rsum (2 * N) (fun j => c (a + (r + 1 + j))%nat k) = window_cost c N (a + N + r) k).
  { intros k. unfold window_cost. apply rsum_ext. intros j _. f_equal. lia. }
  assert (HiM : (i < M)%nat) by (apply nth_error_Some_lt in K1; unfold w in K1; rewrite frow_length in K1; exact K1).
  unfold w in K1, K2, K3. rewrite frow_nth in K1 by exact HiM. injection K1 as <-. rewrite Hw in K2, K3.
  split; [exact HiM|]. split; intros j Hj.
  - apply (K2 j). rewrite frow_nth by exact Hj. rewrite Hw. reflexivity.
  - apply (K3 j); [exact Hj|]. rewrite frow_nth by lia. rewrite Hw. reflexivity.
Qed.

Definition good (idx : list nat) (p : nat) : Prop := length idx = L /\
  (forall m, (m < L)%nat -> (m < N \/ p <= m)%nat -> nth_error idx m = Some 0%nat) /\
  (forall m, (N <= m < p)%nat -> exists k, nth_error idx m = Some k /\ first_min (window_cost c N m) M k).
Lemma good_step idx p q am : good idx p -> (N <= p <= q)%nat -> (q <= L)%nat -> length am = (q - p)%nat ->
  (forall r, (r < q - p)%nat -> exists k, nth_error am r = Some k /\ first_min (window_cost c N (p + r)) M k) ->
  good (firstn p idx ++ am ++ skipn q idx) q.
Proof.
  intros (G1 & G2 & G3) Hp Hq Hl Hr.
  assert (Hf : length (firstn p idx) = p) by (rewrite firstn_length; lia).
  split; [|split].
  - rewrite !app_length, Hf, skipn_length. lia.
  - intros m Hm [H|H].
    + rewrite nth_error_app1 by lia. rewrite nth_error_firstn_lt by lia. apply G2; [exact Hm|left; exact H].
    + rewrite nth_error_app2 by lia. rewrite nth_error_app2 by lia. rewrite Hf, Hl, nth_error_skipn'.
      replace (q + (m - p - (q - p)))%nat with m by lia. apply G2; [exact Hm|right; lia].
  - intros m Hm. destruct (Nat.lt_ge_cases m p) as [H|H].
    + rewrite nth_error_app1 by lia. rewrite nth_error_firstn_lt by lia. apply G3. lia.
    + rewrite nth_error_app2 by lia. rewrite Hf. rewrite nth_error_app1 by lia.
      destruct (Hr (m - p)%nat ltac:(lia)) as (k & K1 & K2). exists k. split; [exact K1|].
      replace (p + (m - p))%nat with m in K2 by lia. exact K2.
Qed.
Lemma good0 : good (repeat 0%nat L) N.
Proof.
  split; [apply repeat_length|]. split; [intros m Hm _; apply nth_error_repeat_lt; exact Hm|]. intros m Hm. lia.
Qed.
Lemma assign_nat a b (v l : list nat) : (a <= b)%nat -> (b <= length l)%nat -> length v = (b - a)%nat ->
  slice_assign (Z.of_nat a) (Z.of_nat b) v l = Ok (firstn a l ++ v ++ skipn b l).
Proof.
  intros H1 H2 H3. unfold slice_assign. cbv zeta. rewrite !clipz_pos by lia. rewrite !Nat2Z.id. unfold bcast.
  destruct (Nat.eqb_spec (length v) (b - a)) as [_|]; [|lia]. cbn [bind]. replace (Nat.max a b) with b by lia. reflexivity.
Qed.
Lemma assign_end a (v l : list nat) : (a <= length l - N)%nat -> (N <= length l)%nat -> length v = (length l - N - a)%nat ->
  slice_assign (Z.of_nat a) (- Z.of_nat N) v l = Ok (firstn a l ++ v ++ skipn (length l - N) l).
Proof.
  intros H1 H2 H3. rewrite <- (assign_nat a (length l - N) v l) by lia. unfold slice_assign. cbv zeta.
  replace (clipz (Z.of_nat (length l)) (- Z.of_nat N)) with (clipz (Z.of_nat (length l)) (Z.of_nat (length l - N))); [reflexivity|].
  rewrite clipz_pos by lia. unfold clipz. destruct (Z.ltb_spec (- Z.of_nat N) 0); lia.
Qed.
Lemma ee_slice a b : (a <= b <= L)%nat -> pyslice (Z.of_nat a) (Z.of_nat b) (map ee (seq 0 L)) = map ee (seq a (b - a)).
Proof.
  intros H. rewrite pyslice_nat by (rewrite ?map_length, ?seq_length; lia).
  apply nth_error_ext_lt.
  - rewrite firstn_length, skipn_length, !map_length, !seq_length. lia.
  - intros i Hi. rewrite firstn_length, skipn_length, map_length, seq_length in Hi.
    rewrite nth_error_firstn_lt by lia. rewrite nth_error_skipn', !nth_error_map_seq by lia. reflexivity.
Qed.
Lemma blocks_ok B K : (N < B)%nat -> forall n i idx, good idx (i * B) -> (1 <= i)%nat -> (i + n = K)%nat -> (K * B + N <= L)%nat ->
  exists idx', af_blocks (map ee (seq 0 L)) symbols N (Z.of_nat B) (seq i n) idx = Ok idx' /\ good idx' (K * B).
Proof.
  intros HB. induction n as [|n IH]; intros i idx Hg Hi HK HL.
  - exists idx. replace K with i by lia. split; [reflexivity|exact Hg].
  - cbn [seq af_blocks]. cbv zeta.
    assert (HiB : (N < i * B)%nat) by nia. assert (HSB : ((i + 1) * B <= K * B)%nat) by nia.
    assert (HS : (S i * B = i * B + B)%nat) by lia.
    replace (Z.of_nat i * Z.of_nat B - Z.of_nat N)%Z with (Z.of_nat (i * B - N)) by lia.
    replace ((Z.of_nat i + 1) * Z.of_nat B + Z.of_nat N)%Z with (Z.of_nat ((i + 1) * B + N)) by lia.
    rewrite ee_slice by lia.
    destruct (block_ok (i * B - N) ((i + 1) * B + N - (i * B - N))) as (am & Eam & Lam & Ram); [lia|lia|].
    rewrite Eam. cbn [bind].
    replace (Z.of_nat i * Z.of_nat B)%Z with (Z.of_nat (i * B)) by lia.
    replace ((Z.of_nat i + 1) * Z.of_nat B)%Z with (Z.of_nat ((i + 1) * B)) by lia.
    rewrite assign_nat; [|lia|rewrite (proj1 Hg); lia|lia]. cbn [bind].
    apply IH; [|lia|lia|exact HL]. replace (S i * B)%nat with ((i + 1) * B)%nat by lia.
    apply (good_step idx (i * B)); [exact Hg|lia|lia|lia|]. intros r Hr.
    destruct (Ram r) as (k & K1 & K2); [lia|]. exists k. split; [exact K1|].
    replace (i * B - N + N + r)%nat with (i * B + r)%nat in K2 by lia. exact K2.
Qed.
Lemma ta_row0 : (1 <= L)%nat -> exists r rs, ta = r :: rs /\ length r = M.
Proof.
  intros HL. destruct Ha as [[H1 H2]|[H1 H2]]; (destruct ta as [|r rs]; [cbn in H1; unfold L in HL; lia|]); exists r, rs;
    (split; [reflexivity|]); inversion H2; assumption.
Qed.
Lemma sym_ne : (1 <= L)%nat -> symbols <> [].
Proof. intros HL. destruct (Hc 0 0)%nat as [(s & Hs & _) _]; [fold L; lia|lia|]. intros ->. destruct Hs. Qed.

Lemma af_index NMAX B : Z.of_nat B = (NMAX / Z.of_nat M / Z.of_nat (length symbols) / 16)%Z -> (2 * N < L)%nat ->
  ((L <= B + N) \/ (N < B /\ L mod B <> N))%nat ->
  exists idx, bps_idx_af NMAX E ta symbols N = Ok idx /\ good idx (L - N).
Proof.
  intros HB HL Hcase.
  assert (Hsplit : (L <= B + N)%nat \/ ((N < B)%nat /\ exists q m, (L / B)%nat = q /\ (L mod B)%nat = m /\ (L = B * q + m)%nat /\ (m < B)%nat /\ m <> N)).
  { clear HB. destruct Hcase as [H|[H1 H2]]; [left; exact H|]. right. split; [exact H1|].
    assert (HB0 : B <> 0%nat) by (clear H2; lia).
    exists (L / B)%nat, (L mod B)%nat. split; [reflexivity|]. split; [reflexivity|].
    split; [exact (Nat.div_mod L B HB0)|]. split; [exact (Nat.mod_upper_bound L B HB0)|exact H2]. }
  clear Hcase.
  assert (HL1 : (1 <= L)%nat) by (clear HB Hsplit; lia).
  assert (HM0 : M <> 0%nat) by (clear HB Hsplit; lia).
  unfold bps_idx_af. fold L.
  destruct (ta_row0 HL1) as (r & rs & Hta & Hr). pose proof (sym_ne HL1) as Hs.
  assert (Hm : match ta with [] => Err IndexError | r0 :: _ => Ok (length r0) end = Ok M) by (rewrite Hta, Hr; reflexivity).
  rewrite Hm. clear r rs Hta Hr Hm. cbn [bind].
  assert (Hls : (length symbols <> 0)%nat) by (clear - Hs; destruct symbols; [congruence|discriminate]).
  destruct (Nat.eqb_spec M 0) as [H0|_]; [destruct (HM0 H0)|]. destruct (Nat.eqb_spec (length symbols) 0) as [H0|_]; [destruct (Hls H0)|].
  cbn [orb bind]. cbv zeta. rewrite <- HB. clear HB. rewrite af_rows. cbn [bind]. rewrite af_ee.
  destruct (Z.leb_spec (Z.of_nat L) (Z.of_nat B + Z.of_nat N)) as [Hs1|Hs1].
  - clear Hsplit. destruct (block_ok 0 L) as (am & Eam & Lam & Ram); [lia|lia|]. rewrite Eam. cbn [bind].
    rewrite assign_end by (rewrite repeat_length; lia). rewrite repeat_length. eexists. split; [reflexivity|].
    apply (good_step _ N); [exact good0|lia|lia|lia|]. intros q Hq. destruct (Ram q ltac:(lia)) as (k & K1 & K2).
    exists k. split; [exact K1|exact K2].
  - destruct Hsplit as [Hx|(HNB & q & m & Eq & Em & Hdm & Hub & Hmod)]; [lia|].
    rewrite <- Nat2Z.inj_div, <- Nat2Z.inj_mod, Eq, Em. clear Eq Em.
    destruct (Z.eqb_spec (Z.of_nat B) 0) as [|_]; [lia|].
    destruct (split_blocks L B N q m Hdm Hub ltac:(lia) HNB Hmod) as (K & R & HKR & HLK & HNR & HK1 & HKB). rewrite HKR.
    clear HKR Hdm Hub Hmod q m.
    replace 0%Z with (Z.of_nat 0) by reflexivity. replace (Z.of_nat B + Z.of_nat N)%Z with (Z.of_nat (B + N)) by lia.
    rewrite ee_slice by lia.
    destruct (block_ok 0 (B + N - 0)) as (am & Eam & Lam & Ram); [lia|lia|]. rewrite Eam. cbn [bind].
    rewrite assign_nat; [|lia|rewrite repeat_length; lia|lia]. cbn [bind].
    assert (G1 : good (firstn N (repeat 0%nat L) ++ am ++ skipn B (repeat 0%nat L)) (1 * B)).
    { rewrite Nat.mul_1_l. apply (good_step _ N); [exact good0|lia|lia|lia|]. intros r0 Hr0. destruct (Ram r0 ltac:(lia)) as (k & K1 & K2).
      exists k. split; [exact K1|exact K2]. }
    rewrite Nat2Z.id.
    destruct (blocks_ok B K HNB (K - 1) 1 _ G1 ltac:(lia) ltac:(lia) ltac:(lia)) as (idx & Eidx & G2).
    rewrite Eidx. cbn [bind].
    replace (Z.of_nat K * Z.of_nat B - Z.of_nat N)%Z with (Z.of_nat (K * B - N)) by lia.
    replace (Z.of_nat K * Z.of_nat B + Z.of_nat R)%Z with (Z.of_nat (K * B + R)) by lia.
    rewrite ee_slice by lia.
    destruct (block_ok (K * B - N) (K * B + R - (K * B - N))) as (am2 & Eam2 & Lam2 & Ram2); [lia|lia|].
    rewrite Eam2. cbn [bind]. replace (Z.of_nat K * Z.of_nat B)%Z with (Z.of_nat (K * B)) by lia.
    pose proof (proj1 G2) as Hlen.
    rewrite assign_end by (rewrite ?Hlen; lia). rewrite Hlen. eexists. split; [reflexivity|].
    apply (good_step _ (K * B)); [exact G2|lia|lia|lia|]. intros r0 Hr0. destruct (Ram2 r0 ltac:(lia)) as (k & K1 & K2).
    exists k. split; [exact K1|]. replace (K * B - N + N + r0)%nat with (K * B + r0)%nat in K2 by lia. exact K2.
Qed.
End Blocks.

Lemma af_index_spec NMAX B E ta M symbols N c : angles_for ta (length E) M -> decision_costs E ta M symbols c ->
  (1 <= M)%nat -> (1 <= N)%nat -> (2 * N < length E)%nat ->
  Z.of_nat B = (NMAX / Z.of_nat M / Z.of_nat (length symbols) / 16)%Z ->
  (length E <= B + N \/ (N < B /\ length E mod B <> N))%nat ->
  exists idx, bps_idx_af NMAX E ta symbols N = Ok idx /\ length idx = length E /\
    (forall m, (m < length E)%nat -> ~ interior (length E) N m -> nth_error idx m = Some 0%nat) /\
    (forall m, interior (length E) N m -> exists k, nth_error idx m = Some k /\ first_min (window_cost c N m) M k).
Proof.
  intros Ha Hc HM HN HL HB Hcase.
  destruct (af_index E ta M symbols N c Ha Hc HM HN NMAX B HB HL Hcase) as (idx & E1 & G1 & G2 & G3).
  exists idx. split; [exact E1|]. split; [exact G1|]. split.
  - intros m Hm Hi. apply G2; [exact Hm|]. unfold interior in Hi. lia.
  - intros m [H1 H2]. apply G3. lia.
Qed.
Lemma af_python NMAX B E ta M symbols N : angles_for ta (length E) M -> symbols <> [] ->
  (1 <= M)%nat -> (1 <= N)%nat -> (2 * N < length E)%nat ->
  Z.of_nat B = (NMAX / Z.of_nat M / Z.of_nat (length symbols) / 16)%Z ->
  (length E <= B + N \/ (N < B /\ length E mod B <> N))%nat ->
  bps_idx_af NMAX E ta symbols N = bps_idx_py E ta symbols N.
Proof.
  intros Ha Hs HM HN HL HB Hcase.
  destruct (costs_exist_modes [E] ta M symbols Hs) as (c & Hc). specialize (Hc 0%nat E eq_refl).
  destruct (af_index_spec NMAX B E ta M symbols N (c 0%nat) Ha Hc HM HN HL HB Hcase) as (i1 & E1 & L1 & O1 & I1).
  destruct (python_index E ta M symbols N (c 0%nat) Ha Hc HM HN) as (i2 & E2 & L2 & O2 & I2).
  rewrite E1, E2. f_equal. apply nth_error_ext_lt; [congruence|]. intros m Hm. rewrite L1 in Hm.
  assert (Hd : interior (length E) N m \/ ~ interior (length E) N m) by (unfold interior; lia).
  destruct Hd as [Hd|Hd]; [|rewrite O1, O2 by assumption; reflexivity].
  destruct (I1 m Hd) as (k1 & -> & F1). destruct (I2 m Hd) as (k2 & -> & F2).
  f_equal. eapply first_min_unique; eassumption.
Qed.
Lemma af_bps NMAX B E M symbols N : symbols <> [] -> (1 <= M)%nat -> (1 <= N)%nat ->
  Z.of_nat B = (NMAX / Z.of_nat M / Z.of_nat (length symbols) / 16)%Z ->
  (forall row, In row E -> 2 * N < length row /\ (length row <= B + N \/ (N < B /\ length row mod B <> N)))%nat ->
  core_bps_af NMAX E M symbols N = core_bps E M symbols N "py"%string.
Proof.
  intros Hs HM HN HB Hrows. unfold core_bps_af, core_bps. assert (Hf : bps_fct "py"%string = Ok bps_idx_py) by reflexivity. rewrite Hf. clear Hf.
  cbn [bind].
  replace (mapM (bps_phase (bps_idx_af NMAX) M symbols N) E) with (mapM (bps_phase bps_idx_py M symbols N) E); [reflexivity|].
  revert Hrows. induction E as [|row E IH]; intros Hrows; [reflexivity|]. cbn [mapM].
  rewrite IH by (intros r Hr; apply Hrows; right; exact Hr).
  destruct (Hrows row (or_introl eq_refl)) as [H1 H2].
  assert (Hi : bps_idx_af NMAX row [test_angles M] symbols N = bps_idx_py row [test_angles M] symbols N).
  { rewrite test_angles_spec. apply (af_python NMAX B row (bps_angles M) M symbols N (bps_angles_for M (length row)) Hs HM HN H1 HB H2). }
  unfold bps_phase at 1 3. rewrite Hi. reflexivity.
Qed.
Lemma af_small : exists NMAX E ta symbols N, angles_for ta (length E) 1 /\ symbols <> [] /\ (0 < NMAX)%Z /\
  bps_idx_af NMAX E ta symbols N = Err ZeroDivisionError /\ exists idx, bps_idx_py E ta symbols N = Ok idx.
Proof.
  exists 15%Z, [C1; C1; C1], [[0]], [C1], 1%nat.
  assert (Ha : angles_for [[0]] (length [C1; C1; C1]) 1) by (left; split; [reflexivity|repeat constructor]).
  split; [exact Ha|]. split; [discriminate|]. split; [lia|]. split.
  { unfold bps_idx_af. cbn [bind length Nat.eqb orb getn nth_error]. cbv zeta.
    replace (15 / Z.of_nat 1 / Z.of_nat 1 / 16)%Z with 0%Z by reflexivity. reflexivity. }
  destruct (costs_exist_modes [[C1; C1; C1]] [[0]] 1 [C1] ltac:(discriminate)) as (c & Hc). specialize (Hc 0%nat _ eq_refl).
  destruct (python_index _ _ _ _ 1 (c 0%nat) Ha Hc) as (idx & E & _); [lia|lia|]. exists idx. exact E.
Qed.
