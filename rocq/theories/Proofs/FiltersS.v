(** Dispersion compensation: gain per bin and block processing. *)
From Coq Require Import Reals List Lra Lia ZArith Arith Psatz Bool.
From Coq Require Import ZifyBool ZifyNat ZifyN.
From Verif Require Import Common.Py Common.Cplx Common.SumX Common.Angle Common.ListX Common.Dft
  Model.Helpers Model.Phase Model.Impair Model.Filters Spec.ImpairSpec Spec.FilterSpec
  Proofs.ImpairQ Proofs.ImpairS Proofs.ImpairT Proofs.FiltersQ.
Import ListNotations.
Local Open Scope R_scope.

Lemma cd_gain E fs N L D wl out H : N = 0%nat \/ N = length E -> (2 <= length E)%nat -> CDcomp E fs N L D wl = Ok (out, H) ->
  filtered_bins (fun k =>
    let n := length E in
    let i := if (2 * k <? n)%nat then (k + n / 2)%nat else (k - (n - n / 2))%nat in
    let f := fs / 2 * (2 * INR i / (INR n - 1) - 1) in
    Cexpi (- (D * wl ^ 2 * L * (2 * PI * f) ^ 2 / (4 * PI * 299792458)))) E out.
Proof.
  intros HN H2 HC. destruct (cd_energy _ _ _ _ _ _ _ _ HN HC) as [HL _].
  destruct (cd_whole E fs N L D wl HN) as [o [E1 E2]]. rewrite E1 in HC. injection HC as <- _.
  split; [exact HL|]. intros k Hk. rewrite E2, dft_idft, cmul_bin by (try apply cd_H_length; exact Hk).
  apply (f_equal (fun z => (z * nth k (dft E) C0)%C)). cbv zeta. set (n := length E) in *.
  assert (Ec : centre n k = if (2 * k <? n)%nat then (k + n / 2)%nat else (k - (n - n / 2))%nat).
  { rewrite centre_val by exact Hk.
    pose proof (Nat.div_mod n 2 ltac:(lia)). pose proof (Nat.mod_upper_bound n 2 ltac:(lia)).
    set (h := (n / 2)%nat) in *. set (md := (n mod 2)%nat) in *. clearbody h md.
    destruct (2 * k <? n)%nat eqn:B; [reflexivity|]. destruct (k + h <? n)%nat eqn:B2; lia. }
  rewrite <- Ec. pose proof (centre_lt n k ltac:(lia)) as Hc. set (i := centre n k) in *. clearbody i.
  unfold cd_H, linspace. rewrite map_map, nth_map_seq by exact Hc.
  apply f_equal. apply f_equal. assert (1 < INR n) by (apply (lt_INR 1); lia). pose proof PI_RGT_0. field. lra.
Qed.

Lemma nth_app_cases (a b : list C) j : nth j (a ++ b) C0 = if (j <? length a)%nat then nth j a C0 else nth (j - length a) b C0.
Proof. destruct (j <? length a)%nat eqn:B; [apply app_nth1; lia|apply app_nth2; lia]. Qed.
Lemma nth_firstn_cases (l : list C) n j : nth j (firstn n l) C0 = if (j <? n)%nat then nth j l C0 else C0.
Proof.
  destruct (j <? n)%nat eqn:B.
  - rewrite <- (firstn_skipn n l) at 2. destruct (Nat.lt_ge_cases j (length l)) as [h|h].
    + rewrite app_nth1; [reflexivity|]. rewrite firstn_length. lia.
    + rewrite (nth_overflow (firstn n l)) by (rewrite firstn_length; lia). rewrite (nth_overflow (_ ++ _)); [reflexivity|].
      rewrite firstn_skipn. lia.
  - apply nth_overflow. rewrite firstn_length. lia.
Qed.
Lemma nth_skipn' (l : list C) n j : nth j (skipn n l) C0 = nth (n + j) l C0.
Proof.
  destruct (Nat.lt_ge_cases (n + j) (length l)) as [h|h].
  - rewrite <- (firstn_skipn n l) at 2. rewrite app_nth2; rewrite firstn_length; [|lia]. f_equal. lia.
  - rewrite !nth_overflow; [reflexivity|lia|rewrite skipn_length; lia].
Qed.
Lemma slice_set_ok lo hi v l : (lo <= hi <= length l)%nat -> length v = (hi - lo)%nat -> forall lo' hi', clipz (Z.of_nat (length l)) lo' = Z.of_nat lo -> clipz (Z.of_nat (length l)) hi' = Z.of_nat hi ->
  exists l', slice_set lo' hi' v l = Ok l' /\ length l' = length l /\
    forall j, nth j l' C0 = if (lo <=? j)%nat && (j <? hi)%nat then nth (j - lo) v C0 else nth j l C0.
Proof.
  intros H Hv lo' hi' E1 E2. unfold slice_set. rewrite E1, E2, !Nat2Z.id. cbv zeta. rewrite Hv, Nat.eqb_refl. cbn [bind].
  eexists. split; [reflexivity|]. split; [rewrite !app_length, firstn_length, skipn_length; lia|].
  intros j. rewrite nth_app_cases, firstn_length, Nat.min_l by lia.
  destruct (j <? lo)%nat eqn:B1.
  - rewrite nth_firstn_cases, B1. replace (lo <=? j)%nat with false by lia. reflexivity.
  - rewrite nth_app_cases, Hv. replace (lo <=? j)%nat with true by lia. cbn [andb].
    replace (j - lo <? hi - lo)%nat with (j <? hi)%nat by lia. destruct (j <? hi)%nat eqn:B2; [reflexivity|].
    rewrite nth_skipn'. f_equal. lia.
Qed.
Lemma slice_len lo hi (l : list C) : (lo <= hi <= length l)%nat -> length (pyslice (Z.of_nat lo) (Z.of_nat hi) l) = (hi - lo)%nat.
Proof. intros H. unfold pyslice. rewrite firstn_length, skipn_length, !clipz_pos by lia. lia. Qed.
Lemma slice_nth lo hi (l : list C) j : (lo <= hi <= length l)%nat -> nth j (pyslice (Z.of_nat lo) (Z.of_nat hi) l) C0 = if (j <? hi - lo)%nat then nth (lo + j) l C0 else C0.
Proof.
  intros H. unfold pyslice. rewrite !clipz_pos by lia. rewrite nth_firstn_cases, nth_skipn'.
  replace (Z.to_nat (Z.min (Z.of_nat (length l)) (Z.of_nat lo))) with lo by lia.
  replace (Z.to_nat (Z.min (Z.of_nat (length l)) (Z.of_nat hi) - Z.min (Z.of_nat (length l)) (Z.of_nat lo))) with (hi - lo)%nat by lia.
  reflexivity.
Qed.
Lemma zip_nth a b j : length a = length b -> nth j (zipc Cadd a b) C0 = (nth j a C0 + nth j b C0)%C.
Proof.
  intros H. revert b j H. unfold zipc. induction a as [|x a IH]; intros [|y b] j H; try discriminate.
  - destruct j; cbn; cring.
  - destruct j as [|j]; cbn [combine map nth fst snd]; [reflexivity|]. apply IH. injection H as H. exact H.
Qed.

Lemma halves q : (4 * q / 2 = 2 * q)%nat /\ (4 * q / 4 = q)%nat.
Proof. split; [replace (4 * q)%nat with (2 * q * 2)%nat by lia; apply Nat.div_mul; lia|replace (4 * q)%nat with (q * 4)%nat by lia; apply Nat.div_mul; lia]. Qed.
Section Blocks.
Variables (E H : list C) (q : nat).
Hypothesis Hq : (1 <= q)%nat.
Hypothesis LH : length H = (4 * q)%nat.
Definition padded (i : nat) : list C := repeat C0 q ++ firstn (2 * q) (skipn (i * (2 * q)) E) ++ repeat C0 q.
Definition blk (i : nat) : list C := idft (cmul_list (dft (padded i)) H).
Lemma padded_length i : ((i + 1) * (2 * q) <= length E)%nat -> length (padded i) = (4 * q)%nat.
Proof. intros Hi. unfold padded. rewrite !app_length, !repeat_length, firstn_length, skipn_length. lia. Qed.
Lemma blk_length i : ((i + 1) * (2 * q) <= length E)%nat -> length (blk i) = (4 * q)%nat.
Proof.
  intros Hi. unfold blk. rewrite idft_length, cmul_list_length; rewrite dft_length, padded_length by exact Hi; [reflexivity|]. symmetry. exact LH.
Qed.
Lemma block_step i sig : ((i + 1) * (2 * q) <= length E)%nat -> ((i + 2) * (2 * q) <= length sig)%nat ->
  exists sig', cd_block E H (4 * q) sig i = Ok sig' /\ length sig' = length sig /\
    forall j, nth j sig' C0 = (nth j sig C0 + if (i * (2 * q) <=? j)%nat && (j <? (i + 2) * (2 * q))%nat then nth (j - i * (2 * q)) (blk i) C0 else C0)%C.
Proof.
  intros Hi Hs. unfold cd_block. destruct (halves q) as [-> ->]. cbv zeta.
  assert (P : pyslice (Z.of_nat i * Z.of_nat (2 * q)) (Z.of_nat i * Z.of_nat (2 * q) + Z.of_nat (2 * q)) E = firstn (2 * q) (skipn (i * (2 * q)) E)).
  { unfold pyslice. rewrite !clipz_pos by nia. f_equal; [nia|]. f_equal. nia. }
  rewrite P.
  destruct (slice_set_ok q (3 * q) (firstn (2 * q) (skipn (i * (2 * q)) E)) (repeat C0 (4 * q)) ltac:(rewrite repeat_length; lia)
     ltac:(rewrite firstn_length, skipn_length; lia) (Z.of_nat q) (- Z.of_nat q)) as [pd [E1 [L1 N1]]].
  { rewrite repeat_length, clipz_pos by lia. lia. }
  { rewrite repeat_length, clipz_neg by lia. lia. }
  rewrite E1. cbn [bind]. rewrite repeat_length in L1.
  assert (EP : pd = padded i).
  { apply nth_list_ext; [rewrite padded_length by exact Hi; exact L1|]. intros j Hj. rewrite N1, nth_repeat. unfold padded.
    rewrite !nth_app_cases, !repeat_length, firstn_length, skipn_length, !nth_repeat.
    destruct (q <=? j)%nat eqn:B1; destruct (j <? q)%nat eqn:B2; try lia; cbn [andb]; [|reflexivity].
    replace (Nat.min (2 * q) (length E - i * (2 * q))) with (2 * q)%nat by lia.
    replace (j - q <? 2 * q)%nat with (j <? 3 * q)%nat by lia. reflexivity. }
  rewrite EP. fold (blk i).
  assert (LB : length (blk i) = (4 * q)%nat) by (apply blk_length; exact Hi).
  replace (Z.of_nat i * Z.of_nat (2 * q) + Z.of_nat (2 * q) + 2 * Z.of_nat q)%Z with (Z.of_nat ((i + 2) * (2 * q))) by nia.
  replace (Z.of_nat i * Z.of_nat (2 * q))%Z with (Z.of_nat (i * (2 * q))) by nia.
  rewrite slice_len by nia. replace ((i + 2) * (2 * q) - i * (2 * q))%nat with (4 * q)%nat by nia. rewrite LB, Nat.eqb_refl. cbn [bind].
  set (old := pyslice _ _ sig). assert (LO : length old = (4 * q)%nat) by (unfold old; rewrite slice_len by nia; nia).
  destruct (slice_set_ok (i * (2 * q)) ((i + 2) * (2 * q)) (zipc Cadd old (blk i)) sig ltac:(nia)
     ltac:(unfold zipc; rewrite map_length, combine_length; nia) (Z.of_nat (i * (2 * q))) (Z.of_nat ((i + 2) * (2 * q)))) as [s' [E2 [L2 N2]]].
  { rewrite clipz_pos by lia. nia. }
  { rewrite clipz_pos by lia. nia. }
  exists s'. split; [exact E2|]. split; [exact L2|]. intros j. rewrite N2.
  destruct ((i * (2 * q) <=? j)%nat && (j <? (i + 2) * (2 * q))%nat) eqn:B; [|cring].
  rewrite zip_nth by lia. apply (f_equal2 Cadd); [|reflexivity]. unfold old. rewrite slice_nth by nia.
  replace (j - i * (2 * q) <? (i + 2) * (2 * q) - i * (2 * q))%nat with true by lia. f_equal. lia.
Qed.
Lemma blocks B : (B * (2 * q) <= length E)%nat -> forall k, (k <= B)%nat ->
  exists sig, foldM (cd_block E H (4 * q)) (repeat C0 (2 * q * (B + 1))) (seq 0 k) = Ok sig /\ length sig = (2 * q * (B + 1))%nat /\
    forall j, nth j sig C0 = csum k (fun i => if (i * (2 * q) <=? j)%nat && (j <? (i + 2) * (2 * q))%nat then nth (j - i * (2 * q)) (blk i) C0 else C0).
Proof.
  intros HB. induction k as [|k IH]; intros Hk.
  - eexists. split; [reflexivity|]. split; [apply repeat_length|]. intros j. rewrite csum_0. apply nth_repeat.
  - destruct IH as [sig [E1 [L1 N1]]]; [lia|].
    destruct (block_step k sig) as [s' [E2 [L2 N2]]]; [nia|rewrite L1; nia|].
    exists s'. split.
    + rewrite seq_S. cbn [Nat.add].
      assert (A : forall l1 a x, foldM (cd_block E H (4 * q)) a (l1 ++ [x]) = let! a' := foldM (cd_block E H (4 * q)) a l1 in cd_block E H (4 * q) a' x).
      { induction l1 as [|y l1 IH2]; intros a x; cbn [app foldM bind].
        - destruct (cd_block E H (4 * q) a x); reflexivity.
        - destruct (cd_block E H (4 * q) a y); cbn [bind]; [apply IH2|reflexivity]. }
      rewrite A, E1. cbn [bind]. exact E2.
    + split; [lia|]. intros j. rewrite N2, N1, csum_S. reflexivity.
Qed.
End Blocks.

(** blocks of 4 q samples: the result is cut to whole half blocks *)
Lemma cd_blocks E fs q L D wl : (1 <= q)%nat -> (4 * q)%nat <> length E -> exists out, CDcomp E fs (4 * q) L D wl = Ok (out, cd_H (4 * q) fs D L wl) /\
  length out = (2 * q * (length E / (2 * q)))%nat /\
  forall j, (j < length out)%nat -> nth j out C0 = csum (length E / (2 * q)) (fun i =>
    if (i * (2 * q) <=? j + q)%nat && (j + q <? (i + 2) * (2 * q))%nat then nth (j + q - i * (2 * q)) (blk E (cd_H (4 * q) fs D L wl) q i) C0 else C0).
Proof.
  intros Hq HN. unfold CDcomp. cbv zeta. replace (4 * q =? 0)%nat with false by lia. cbv iota. replace (4 * q =? length E)%nat with false by lia.
  destruct (halves q) as [-> ->]. replace (2 * q =? 0)%nat with false by lia.
  set (H := cd_H (4 * q) fs D L wl). set (B := (length E / (2 * q))%nat).
  assert (HB : (B * (2 * q) <= length E)%nat) by (unfold B; rewrite Nat.mul_comm; apply Nat.mul_div_le; lia).
  destruct (blocks E H q Hq (cd_H_length _ _ _ _ _) B HB B (le_n B)) as [sig [E1 [L1 N1]]]. rewrite E1. cbn [bind].
  eexists. split; [reflexivity|].
  assert (SL : pyslice (Z.of_nat q) (- Z.of_nat q) sig = pyslice (Z.of_nat q) (Z.of_nat (2 * q * (B + 1) - q)) sig).
  { unfold pyslice. rewrite L1. rewrite clipz_neg by lia. rewrite (clipz_pos _ (Z.of_nat (2 * q * (B + 1) - q))) by lia.
    replace (Z.max 0 (Z.of_nat (2 * q * (B + 1)) - Z.of_nat q)) with (Z.min (Z.of_nat (2 * q * (B + 1))) (Z.of_nat (2 * q * (B + 1) - q))) by nia. reflexivity. }
  rewrite SL. rewrite slice_len by nia. split; [nia|]. intros j Hj. rewrite slice_nth by nia.
  replace (j <? 2 * q * (B + 1) - q - q)%nat with true by lia. rewrite N1. apply csum_ext. intros i Hi. rewrite (Nat.add_comm q j). reflexivity.
Qed.
(** without dispersion the blocks are put together again *)
Lemma cd_blocks_id E fs q L D wl out H : (1 <= q)%nat -> (4 * q)%nat <> length E -> D * L = 0 -> CDcomp E fs (4 * q) L D wl = Ok (out, H) ->
  out = firstn (2 * q * (length E / (2 * q))) E.
Proof.
  intros Hq HN HD HC. destruct (cd_blocks E fs q L D wl Hq HN) as [o [E1 [L1 N1]]]. rewrite E1 in HC. injection HC as <- <-.
  set (B := (length E / (2 * q))%nat) in *.
  assert (HB : (B * (2 * q) <= length E)%nat) by (unfold B; rewrite Nat.mul_comm; apply Nat.mul_div_le; lia). clearbody B.
  apply nth_list_ext; [rewrite firstn_length; lia|]. intros j Hj. rewrite N1 by exact Hj.
  rewrite nth_firstn_cases. replace (j <? 2 * q * B)%nat with true by lia. rewrite L1 in Hj.
  assert (EB : forall i, ((i + 1) * (2 * q) <= length E)%nat -> blk E (cd_H (4 * q) fs D L wl) q i = padded E q i).
  { intros i Hi. unfold blk. rewrite cmul_list_one; [apply idft_dft| |].
    - rewrite dft_length, cd_H_length. apply (padded_length E (cd_H (4 * q) fs D L wl)); try assumption. apply cd_H_length.
    - intros z Hz. eapply cd_H_zero; [exact HD|exact Hz]. }
  set (i0 := (j / (2 * q))%nat).
  assert (I0 : (i0 * (2 * q) <= j < (i0 + 1) * (2 * q))%nat).
  { unfold i0. pose proof (Nat.div_mod j (2 * q) ltac:(lia)). pose proof (Nat.mod_upper_bound j (2 * q) ltac:(lia)). nia. }
  clearbody i0. assert (Hi0 : (i0 < B)%nat) by nia.
  rewrite (csum_single B _ i0); [|exact Hi0|].
  - replace (i0 * (2 * q) <=? j + q)%nat with true by lia. replace (j + q <? (i0 + 2) * (2 * q))%nat with true by lia. cbn [andb].
    rewrite EB by nia. unfold padded. rewrite !nth_app_cases, !repeat_length, firstn_length, skipn_length.
    replace (j + q - i0 * (2 * q) <? q)%nat with false by lia.
    replace (Nat.min (2 * q) (length E - i0 * (2 * q))) with (2 * q)%nat by nia.
    replace (j + q - i0 * (2 * q) - q <? 2 * q)%nat with true by lia.
    rewrite nth_firstn_cases, nth_skipn'. replace (j + q - i0 * (2 * q) - q <? 2 * q)%nat with true by lia. f_equal. lia.
  - intros i Hi Hne. destruct ((i * (2 * q) <=? j + q)%nat && (j + q <? (i + 2) * (2 * q))%nat) eqn:C; [|reflexivity].
    rewrite EB by nia. unfold padded. rewrite !nth_app_cases, !repeat_length, firstn_length, skipn_length, !nth_repeat.
    destruct (j + q - i * (2 * q) <? q)%nat eqn:B1; [reflexivity|].
    replace (Nat.min (2 * q) (length E - i * (2 * q))) with (2 * q)%nat by nia.
    destruct (j + q - i * (2 * q) - q <? 2 * q)%nat eqn:B2; [|reflexivity]. exfalso. apply Hne. nia.
Qed.
