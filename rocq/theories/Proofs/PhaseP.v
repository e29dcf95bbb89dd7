(** Blind phase search: proofs about the index search. *)
From Coq Require Import List Arith ZArith Lia Reals Lra.
From Verif Require Import Common.Py Common.ListX Common.Cplx Common.SumX Common.Angle Model.Decision Model.Quality
  Model.Pilots Model.Phase Spec.Seq Spec.Equal Spec.PhaseSpec Proofs.DecisionP.
Import ListNotations.
Local Open Scope R_scope.

(** ** the running minimum *)
Lemma scan_ok ds : forall k pos dmin idx, (pos < length idx)%nat ->
  exists idx', scan_angles k ds pos dmin idx = Ok idx' /\ length idx' = length idx /\
    (forall q, q <> pos -> nth_error idx' q = nth_error idx q) /\
    (((forall d, In d ds -> dmin <= d) /\ idx' = idx) \/
     (exists j d, nth_error ds j = Some d /\ d < dmin /\ (forall d', In d' ds -> d <= d') /\
        (forall j' d', (j' < j)%nat -> nth_error ds j' = Some d' -> d < d') /\
        nth_error idx' pos = Some (k + j)%nat)).
Proof.
  induction ds as [|d ds IH]; intros k pos dmin idx Hp; cbn [scan_angles].
  - exists idx. split; [reflexivity|]. split; [reflexivity|]. split; [reflexivity|].
    left. split; [intros d []|reflexivity].
  - destruct (Rlt_dec d dmin) as [H|H].
    + assert (Hs : setn pos k idx = Ok (upd pos k idx)).
      { unfold setn. destruct (Nat.ltb_spec pos (length idx)); [reflexivity|lia]. }
      rewrite Hs. cbn [bind].
      destruct (IH (S k) pos d (upd pos k idx)) as (idx' & E & Hl & Ho & Hc).
      { rewrite upd_length. exact Hp. }
      exists idx'. split; [exact E|]. rewrite upd_length in Hl. split; [exact Hl|]. split.
      { intros q Hq. rewrite (Ho q Hq). apply upd_nth_other. congruence. }
      right. destruct Hc as [[Hm ->]|(j & d1 & Hj & Hlt & Hm & Hf & Hn)].
      * exists 0%nat, d. split; [reflexivity|]. split; [exact H|]. split.
        { intros d' [<-|Hd']; [lra|apply Hm; exact Hd']. }
        split; [intros j' d' Hj'; lia|]. rewrite Nat.add_0_r. apply upd_nth_same. exact Hp.
      * exists (S j), d1. split; [exact Hj|]. split; [lra|]. split.
        { intros d' [<-|Hd']; [lra|apply Hm; exact Hd']. }
        split.
        { intros [|j'] d' Hj' Hd'; cbn in Hd'; [injection Hd' as <-; exact Hlt|].
          apply (Hf j'); [lia|exact Hd']. }
        rewrite Hn. f_equal. lia.
    + destruct (IH (S k) pos dmin idx Hp) as (idx' & E & Hl & Ho & Hc).
      exists idx'. split; [exact E|]. split; [exact Hl|]. split; [exact Ho|].
      destruct Hc as [[Hm ->]|(j & d1 & Hj & Hlt & Hm & Hf & Hn)].
      * left. split; [|reflexivity]. intros d' [<-|Hd']; [lra|apply Hm; exact Hd'].
      * right. exists (S j), d1. split; [exact Hj|]. split; [exact Hlt|]. split.
        { intros d' [<-|Hd']; [lra|apply Hm; exact Hd']. }
        split.
        { intros [|j'] d' Hj' Hd'; cbn in Hd'; [injection Hd' as <-; lra|].
          apply (Hf j'); [lia|exact Hd']. }
        rewrite Hn. f_equal. lia.
Qed.

(** rows as functions *)
Lemma row_op_length f a b : length (row_op f a b) = Nat.min (length a) (length b).
Proof. unfold row_op. rewrite map_length. apply combine_length. Qed.
Lemma row_op_nth f : forall a b k x y, nth_error a k = Some x -> nth_error b k = Some y -> nth_error (row_op f a b) k = Some (f x y).
Proof.
  induction a as [|a0 a IH]; intros [|b0 b] [|k] x y H1 H2; cbn in *; try discriminate.
  - injection H1 as <-. injection H2 as <-. reflexivity.
  - apply IH; assumption.
Qed.
(** the row with entries f 0 .. f (M-1) *)
Definition frow (M : nat) (f : nat -> R) : list R := map f (seq 0 M).
Lemma frow_length M f : length (frow M f) = M.
Proof. unfold frow. rewrite map_length. apply seq_length. Qed.
Lemma frow_nth M f k : (k < M)%nat -> nth_error (frow M f) k = Some (f k).
Proof. intros H. unfold frow. rewrite nth_error_map_seq by exact H. reflexivity. Qed.
Lemma frow_ext M f g : (forall k, (k < M)%nat -> f k = g k) -> frow M f = frow M g.
Proof. intros H. unfold frow. apply map_ext_in. intros k Hk. apply in_seq in Hk. apply H. lia. Qed.
Lemma row_op_frow f M g h : row_op f (frow M g) (frow M h) = frow M (fun k => f (g k) (h k)).
Proof.
  apply nth_error_ext_lt.
  - rewrite row_op_length, !frow_length. lia.
  - intros i Hi. rewrite row_op_length, !frow_length in Hi.
    rewrite (row_op_nth f _ _ i (g i) (h i)) by (apply frow_nth; lia). symmetry. apply frow_nth. lia.
Qed.
Lemma repeat_frow M : repeat 0 M = frow M (fun _ => 0).
Proof.
  unfold frow. generalize 0%nat as s. induction M as [|M IH]; intros s; [reflexivity|].
  cbn. f_equal. apply IH.
Qed.
Lemma row_is_frow (row : list R) : row = frow (length row) (fun k => nth k row 0).
Proof.
  apply nth_error_ext_lt; [rewrite frow_length; reflexivity|]. intros i Hi.
  rewrite frow_nth by exact Hi. apply nth_error_nth'. exact Hi.
Qed.
Lemma in_frow M f d : In d (frow M f) <-> exists k, (k < M)%nat /\ d = f k.
Proof.
  unfold frow. rewrite in_map_iff. split.
  - intros (k & H & Hk). apply in_seq in Hk. exists k. split; [lia|congruence].
  - intros (k & H & ->). exists k. split; [reflexivity|apply in_seq; lia].
Qed.

(** ** the loop *)
Lemma scan_frow M f pos dmin idx old : (pos < length idx)%nat -> nth_error idx pos = Some old ->
  exists idx' new, scan_angles 0 (frow M f) pos dmin idx = Ok idx' /\ length idx' = length idx /\
    (forall q, q <> pos -> nth_error idx' q = nth_error idx q) /\
    nth_error idx' pos = Some new /\ chosen f M dmin old new.
Proof.
  intros Hp Ho. destruct (scan_ok (frow M f) 0 pos dmin idx Hp) as (idx' & E & Hl & Hq & Hc).
  exists idx'. destruct Hc as [[Hm ->]|(j & d & Hj & Hlt & Hm & Hf & Hn)].
  - exists old. repeat (split; [first [assumption|reflexivity]|]).
    left. split; [|reflexivity]. intros i Hi. apply Hm. apply in_frow. exists i. split; [exact Hi|reflexivity].
  - exists j. repeat (split; [first [assumption|reflexivity]|]).
    assert (HjM : (j < M)%nat) by (apply nth_error_Some_lt in Hj; rewrite frow_length in Hj; exact Hj).
    rewrite frow_nth in Hj by exact HjM. injection Hj as <-.
    right. split; [|exact Hlt]. split; [exact HjM|]. split.
    + intros i Hi. apply Hm. apply in_frow. exists i. split; [exact Hi|reflexivity].
    + intros i Hi. apply (Hf i); [exact Hi|]. apply frow_nth. lia.
Qed.

Section Loop.
  Context (X : nat -> nat -> R) (M n : nat).
  (** cumulative sum of the rows 1 .. t *)
  Let S (t k : nat) : R := rsum t (fun j => X (1 + j)%nat k).

  Lemma cum_diff i d k : (d <= i)%nat -> S i k - S (i - d) k = rsum d (fun j => X (i - d + 1 + j)%nat k).
  Proof.
    intros H. unfold S. replace i with ((i - d) + d)%nat at 1 by lia. rewrite rsum_app.
    rewrite (rsum_ext d (fun j => X (1 + (i - d + j))%nat k) (fun j => X (i - d + 1 + j)%nat k)); [lra|].
    intros j _. f_equal. lia.
  Qed.

  Lemma select_loop_ok cnt : forall i idx, (1 <= i)%nat -> length idx = (i + cnt)%nat ->
    exists out, select_loop (2 * n) (map (fun t => frow M (X t)) (seq i cnt)) i
                  (map (fun t => frow M (S t)) (seq 0 i)) idx = Ok out /\
      length out = length idx /\
      (forall m, ~ (Nat.max i (2 * n) <= m + n /\ m + n < i + cnt)%nat -> nth_error out m = nth_error idx m) /\
      (forall m old, (Nat.max i (2 * n) <= m + n)%nat -> (m + n < i + cnt)%nat -> nth_error idx m = Some old ->
         exists new, nth_error out m = Some new /\ chosen (fun k => S (m + n) k - S (m + n - 2 * n) k) M 1000 old new).
  Proof.
    induction cnt as [|cnt IH]; intros i idx Hi Hl.
    - cbn [seq map select_loop]. exists idx. split; [reflexivity|]. split; [reflexivity|].
      split; [reflexivity|]. intros m old H1 H2. lia.
    - cbn [seq map select_loop].
      assert (Hg : getn (map (fun t => frow M (S t)) (seq 0 i)) (i - 1) = Ok (frow M (S (i - 1)))).
      { unfold getn. rewrite nth_error_map_seq by lia. reflexivity. }
      rewrite Hg. cbn [bind]. cbv zeta.
      assert (Hr : row_op Rplus (frow M (S (i - 1))) (frow M (X i)) = frow M (S i)).
      { rewrite row_op_frow. apply frow_ext. intros k _. unfold S.
        replace i with (Datatypes.S (i - 1)) at 3 by lia. rewrite rsum_S. repeat f_equal. lia. }
      rewrite Hr.
      assert (Hc : map (fun t => frow M (S t)) (seq 0 i) ++ [frow M (S i)] = map (fun t => frow M (S t)) (seq 0 (Datatypes.S i))).
      { rewrite seq_S, map_app. reflexivity. }
      rewrite Hc.
      destruct (Nat.ltb_spec i (2 * n)) as [Hlt|Hge].
      + cbn [bind]. destruct (IH (Datatypes.S i) idx) as (out & E & Hlo & Hs & Hn); [lia|lia|].
        exists out. split; [exact E|]. split; [exact Hlo|]. split.
        * intros m Hm. apply Hs. lia.
        * intros m old H1 H2 Ho. apply Hn; [lia|lia|exact Ho].
      + assert (Hg2 : getn (map (fun t => frow M (S t)) (seq 0 (Datatypes.S i))) (i - 2 * n) = Ok (frow M (S (i - 2 * n)))).
        { unfold getn. rewrite nth_error_map_seq by lia. reflexivity. }
        rewrite Hg2. cbn [bind]. rewrite row_op_frow.
        replace (2 * n / 2)%nat with n by (rewrite Nat.mul_comm, Nat.div_mul; lia).
        destruct (nth_error_lt_Some idx (i - n)) as [o Ho]; [lia|].
        destruct (scan_frow M (fun k => S i k - S (i - 2 * n) k) (i - n) 1000 idx o ltac:(lia) Ho)
          as (idx' & new & Es & Hl' & Hq & Hnew & Hch).
        rewrite Es. cbn [bind].
        destruct (IH (Datatypes.S i) idx') as (out & E & Hlo & Hs & Hn); [lia|lia|].
        exists out. split; [exact E|]. split; [congruence|]. split.
        * intros m Hm. rewrite (Hs m) by lia. apply Hq. lia.
        * intros m old H1 H2 Hold. destruct (Nat.eq_dec (m + n) i) as [He|He].
          -- assert (m = i - n)%nat by lia. subst m. rewrite Ho in Hold. injection Hold as <-.
             exists new. rewrite (Hs (i - n)%nat) by lia. split; [exact Hnew|].
             replace (i - n + n)%nat with i by lia. exact Hch.
          -- apply Hn; [lia|lia|]. rewrite (Hq m) by lia. exact Hold.
  Qed.

  Lemma select_angle_index_ok L : (1 <= L)%nat ->
    exists out, select_angle_index (map (fun t => frow M (X t)) (seq 0 L)) (2 * n) = Ok out /\ length out = L /\
      (forall m, (m < L)%nat -> ~ interior L n m -> nth_error out m = Some 0%nat) /\
      (forall m, interior L n m -> exists new, nth_error out m = Some new /\
         chosen (window_cost X n m) M 1000 0 new).
  Proof.
    intros HL. destruct L as [|L]; [lia|]. unfold select_angle_index. cbn [seq map].
    rewrite frow_length, repeat_frow.
    change [frow M (fun _ => 0)] with (map (fun t => frow M (S t)) (seq 0 1)).
    replace (length (frow M (X 0%nat) :: map (fun t => frow M (X t)) (seq 1 L))) with (Datatypes.S L)
      by (cbn [length]; rewrite map_length, seq_length; reflexivity).
    destruct (select_loop_ok L 1 (repeat 0%nat (Datatypes.S L)) ltac:(lia)) as (out & E & Hl & Hs & Hn).
    { rewrite repeat_length. reflexivity. }
    exists out. split; [exact E|]. rewrite repeat_length in Hl. split; [exact Hl|].
    assert (Hz : forall m, (m < Datatypes.S L)%nat -> nth_error (repeat 0%nat (Datatypes.S L)) m = Some 0%nat)
      by (intros m Hm; apply nth_error_repeat_lt; exact Hm).
    split.
    - intros m Hm Hni. rewrite Hs; [apply Hz; exact Hm|]. unfold interior in Hni. lia.
    - intros m [H1 H2]. destruct (Nat.eq_dec (m + n) 0) as [H0|H0].
      + assert (m = 0%nat) by lia. assert (n = 0%nat) by lia. clear H0.
        exists 0%nat. split.
        { rewrite Hs; [apply Hz; lia|lia]. }
        assert (Hw : forall k, window_cost X n m k = 0) by (intros k; unfold window_cost; subst; reflexivity).
        destruct M as [|M']; [left; split; [intros k Hk; lia|reflexivity]|].
        right. split; [|rewrite Hw; lra]. split; [lia|]. split; [|intros; lia].
        intros j _. rewrite !Hw. lra.
      + destruct (Hn m 0%nat ltac:(lia) ltac:(lia) (Hz m ltac:(lia))) as (new & Hnew & Hch).
        exists new. split; [exact Hnew|].
        assert (Hw : forall k, S (m + n) k - S (m + n - 2 * n) k = window_cost X n m k).
        { intros k. rewrite cum_diff by lia. unfold window_cost. apply rsum_ext. intros j _. f_equal. lia. }
        destruct Hch as [[Hm ->]|[[Hk [Hm Hf]] Hlim]].
        * left. split; [|reflexivity]. intros k Hk. rewrite <- Hw. apply Hm. exact Hk.
        * right. rewrite <- Hw. split; [|exact Hlim]. split; [exact Hk|]. split; intros j Hj; rewrite <- !Hw.
          -- apply Hm. exact Hj.
          -- apply Hf. exact Hj.
  Qed.
End Loop.

(** ** the distances *)
Lemma dsp_dist_spec x al : forall o d0, let d := snd (dsp_det_symbol_loop x al o d0) in
  d <= d0 /\ (forall s, In s al -> d <= Cnorm2 (x - s)%C) /\ (d = d0 \/ exists s, In s al /\ d = Cnorm2 (x - s)%C).
Proof.
  induction al as [|a al IH]; intros o d0; cbn [dsp_det_symbol_loop]; cbv zeta.
  - cbn [snd]. split; [lra|]. split; [intros s []|left; reflexivity].
  - destruct (Rlt_dec (Cnorm2 (x - a)%C) d0) as [H|H].
    + destruct (IH (Some a) (Cnorm2 (x - a)%C)) as (H1 & H2 & H3). cbv zeta in *. split; [lra|]. split.
      * intros s [<-|Hs]; [exact H1|apply H2; exact Hs].
      * right. destruct H3 as [->|(s & Hs & ->)]; [exists a; split; [left; reflexivity|reflexivity]|exists s; split; [right; exact Hs|reflexivity]].
    + destruct (IH o d0) as (H1 & H2 & H3). cbv zeta in *. split; [exact H1|]. split.
      * intros s [<-|Hs]; [lra|apply H2; exact Hs].
      * destruct H3 as [->|(s & Hs & ->)]; [left; reflexivity|right; exists s; split; [right; exact Hs|reflexivity]].
Qed.
Lemma bps_dist_least al x d : least_dist al x d -> bps_dist x al = Rmin d 100.
Proof.
  intros [(s & Hs & Hd) Hm]. unfold bps_dist, dsp_det_symbol.
  destruct (dsp_dist_spec x al None 1000) as (H1 & H2 & H3). cbv zeta in *.
  set (e := snd (dsp_det_symbol_loop x al None 1000)) in *. clearbody e.
  pose proof (H2 s Hs) as H4.
  assert (Hmin : e = d \/ (e = 1000 /\ 1000 <= d)).
  { destruct H3 as [H3|(s' & Hs' & H3)].
    - right. split; [exact H3|]. lra.
    - left. pose proof (Hm s' Hs'). lra. }
  unfold Rmin. destruct (Rlt_dec e 100); destruct (Rle_dec d 100); destruct Hmin as [Hmin|[Hmin Hmin']]; lra.
Qed.

Lemma angle_row ta L M t : angles_for ta L M -> (t < L)%nat ->
  exists row, nth_error ta (if (1 <? length ta)%nat then t else 0%nat) = Some row /\
    row = frow M (test_angle ta t).
Proof.
  intros H Ht.
  assert (Hrow : forall i row, nth_error ta i = Some row -> length row = M).
  { intros i row Hi. destruct H as [[_ H]|[_ H]]; unfold rect in H; rewrite Forall_forall in H; apply H; eapply nth_error_In; exact Hi. }
  assert (Hlen : length ta = 1%nat \/ (length ta = L /\ length ta <> 1%nat)).
  { destruct H as [[H _]|[H _]]; [left; exact H|]. destruct (Nat.eq_dec (length ta) 1); [left|right]; auto. }
  set (i := if (1 <? length ta)%nat then t else 0%nat).
  assert (Hi : (i < length ta)%nat).
  { unfold i. destruct (Nat.ltb_spec 1 (length ta)); [|]; destruct Hlen as [|[]]; lia. }
  destruct (nth_error_lt_Some ta i Hi) as [row Hr]. exists row. split; [exact Hr|].
  rewrite (row_is_frow row), (Hrow _ _ Hr). apply frow_ext. intros k _. unfold test_angle, cell.
  assert (He : (if (length ta =? 1)%nat then 0 else t)%nat = i).
  { unfold i. destruct (Nat.ltb_spec 1 (length ta)); destruct (Nat.eqb_spec (length ta) 1); try reflexivity; [lia|].
    destruct Hlen as [|[]]; lia. }
  rewrite He. rewrite (nth_error_nth ta i [] Hr). reflexivity.
Qed.

Lemma bps_dists_ok E ta M symbols : angles_for ta (length E) M ->
  bps_dists E ta symbols =
  Ok (map (fun t => frow M (fun k => bps_dist (nth t E C0 * Cexpi (test_angle ta t k))%C symbols)) (seq 0 (length E))).
Proof.
  intros H. unfold bps_dists. apply mapM_ok. intros t Ht. apply in_seq in Ht.
  unfold getn at 1. rewrite (nth_error_nth' E C0) by lia. cbn [bind].
  destruct (angle_row ta (length E) M t H ltac:(lia)) as (row & Hr & ->).
  unfold getn. rewrite Hr. cbn [bind]. apply f_equal. unfold frow. rewrite map_map. reflexivity.
Qed.

Lemma compiled_index E ta M symbols N c : angles_for ta (length E) M -> decision_costs E ta M symbols c ->
  exists idx, bps_idx_pyt E ta symbols N = Ok idx /\ length idx = length E /\
    (forall m, (m < length E)%nat -> ~ interior (length E) N m -> nth_error idx m = Some 0%nat) /\
    (forall m, interior (length E) N m -> exists k, nth_error idx m = Some k /\
       chosen (window_cost (capped c) N m) M 1000 0 k).
Proof.
  intros Ha Hc. unfold bps_idx_pyt. rewrite (bps_dists_ok E ta M symbols Ha). cbn [bind].
  rewrite (map_ext_in _ (fun t => frow M (capped c t))).
  - destruct (Nat.eq_dec (length E) 0) as [H0|H0].
    + rewrite H0. cbn [seq map select_angle_index]. exists []. split; [reflexivity|]. split; [reflexivity|].
      split; [intros; lia|]. intros m [_ H]. lia.
    + apply select_angle_index_ok. lia.
  - intros t Ht. apply in_seq in Ht. apply frow_ext. intros k Hk. unfold capped. apply bps_dist_least. apply Hc; [lia|exact Hk].
Qed.

(** ** the search in Python *)
Lemma fold_Rmin_spec l : forall a, let m := fold_left Rmin l a in
  m <= a /\ (forall x, In x l -> m <= x) /\ (m = a \/ In m l).
Proof.
  induction l as [|b l IH]; intros a; cbn [fold_left]; cbv zeta.
  - split; [lra|]. split; [intros x []|left; reflexivity].
  - destruct (IH (Rmin a b)) as (H1 & H2 & H3). cbv zeta in *.
    pose proof (Rmin_l a b). pose proof (Rmin_r a b). split; [lra|]. split.
    + intros x [<-|Hx]; [lra|apply H2; exact Hx].
    + destruct H3 as [H3|H3]; [|right; right; exact H3]. rewrite H3.
      destruct (Rmin_case a b (fun z => z = a \/ In z (b :: l))); auto; try (left; reflexivity); right; left; reflexivity.
Qed.
Lemma row_min_least al x d : least_dist al x d -> row_min (map (fun s => Cabs (x - s)%C ^ 2) al) = Ok d.
Proof.
  intros [(s & Hs & Hd) Hm].
  assert (He : forall z, Cabs z ^ 2 = Cnorm2 z) by (intros z; cbn; rewrite Rmult_1_r; apply Cabs_sqr).
  destruct al as [|a al]; [destruct Hs|]. cbn [map row_min]. f_equal.
  destruct (fold_Rmin_spec (map (fun s => Cabs (x - s)%C ^ 2) al) (Cabs (x - a)%C ^ 2)) as (H1 & H2 & H3). cbv zeta in *.
  set (m := fold_left Rmin _ _) in *. clearbody m.
  assert (Hle : m <= d).
  { destruct Hs as [<-|Hs]; [rewrite He in H1; lra|].
    pose proof (H2 (Cabs (x - s)%C ^ 2) (in_map (fun s => Cabs (x - s)%C ^ 2) al s Hs)) as H4. rewrite He in H4. lra. }
  assert (Hge : d <= m).
  { destruct H3 as [->|H3]; [rewrite He; apply Hm; left; reflexivity|].
    apply in_map_iff in H3 as (t & <- & Ht). rewrite He. apply Hm. right. exact Ht. }
  lra.
Qed.

Lemma cumsum_rows_ok X M cnt : forall t f,
  cumsum_rows (frow M f) (map (fun u => frow M (X u)) (seq t cnt)) =
  map (fun u => frow M (fun k => f k + rsum (S u) (fun j => X (t + j)%nat k))) (seq 0 cnt).
Proof.
  induction cnt as [|cnt IH]; intros t f; [reflexivity|]. cbn [seq map cumsum_rows]. rewrite row_op_frow.
  apply (f_equal2 cons).
  - apply frow_ext. intros k _. rewrite rsum_S, rsum_0, Nat.add_0_r. lra.
  - rewrite IH, <- seq_shift, map_map. apply map_ext. intros u. apply frow_ext. intros k _.
    rewrite (rsum_Sl (S u)). rewrite Nat.add_0_r.
    rewrite (rsum_ext (S u) (fun i => X (t + S i)%nat k) (fun j => X (S t + j)%nat k)); [lra|].
    intros i _. f_equal. lia.
Qed.

Lemma mapM_map {A B D} (f : B -> result D) (g : A -> B) l : mapM f (map g l) = mapM (fun a => f (g a)) l.
Proof. induction l as [|a l IH]; [reflexivity|]. cbn [map mapM]. rewrite IH. reflexivity. Qed.

Lemma combine_map_seq {A B} (f : nat -> A) (g : nat -> B) s n :
  combine (map f (seq s n)) (map g (seq s n)) = map (fun t => (f t, g t)) (seq s n).
Proof. revert s. induction n as [|n IH]; intros s; [reflexivity|]. cbn. f_equal. apply IH. Qed.

Lemma list_as_map {A} (d : A) l : l = map (fun t => nth t l d) (seq 0 (length l)).
Proof.
  apply nth_error_ext_lt; [rewrite map_length, seq_length; reflexivity|]. intros i Hi.
  rewrite nth_error_map_seq by exact Hi. apply nth_error_nth'. exact Hi.
Qed.

Lemma slice_assign_mid {A} n (v l : list A) : (2 * n <= length l)%nat -> (1 <= n)%nat -> length v = (length l - 2 * n)%nat ->
  slice_assign (Z.of_nat n) (- Z.of_nat n) v l = Ok (firstn n l ++ v ++ skipn (length l - n) l).
Proof.
  intros H1 Hn H2. unfold slice_assign.
  assert (Ha : Z.to_nat (clipz (Z.of_nat (length l)) (Z.of_nat n)) = n).
  { unfold clipz. destruct (Z.ltb_spec (Z.of_nat n) 0); lia. }
  assert (Hb : Z.to_nat (clipz (Z.of_nat (length l)) (- Z.of_nat n)) = (length l - n)%nat).
  { unfold clipz. destruct (Z.ltb_spec (- Z.of_nat n) 0); lia. }
  cbv zeta. rewrite Ha, Hb. unfold bcast.
  destruct (Nat.eqb_spec (length v) (length l - n - n)) as [_|Hne]; [|lia]. cbn [bind].
  replace (Nat.max n (length l - n)) with (length l - n)%nat by lia. reflexivity.
Qed.
Lemma slice_assign_none {A} n (l : list A) : (length l <= 2 * n)%nat ->
  slice_assign (Z.of_nat n) (- Z.of_nat n) [] l = Ok l.
Proof.
  intros H1. unfold slice_assign.
  assert (Ha : Z.to_nat (clipz (Z.of_nat (length l)) (Z.of_nat n)) = Nat.min n (length l)).
  { unfold clipz. destruct (Z.ltb_spec (Z.of_nat n) 0); lia. }
  assert (Hb : (Z.to_nat (clipz (Z.of_nat (length l)) (- Z.of_nat n)) <= Nat.min n (length l))%nat).
  { unfold clipz. destruct (Z.ltb_spec (- Z.of_nat n) 0); lia. }
  cbv zeta. rewrite Ha. set (b := Z.to_nat (clipz (Z.of_nat (length l)) (- Z.of_nat n))) in *. unfold bcast.
  destruct (Nat.eqb_spec (length (@nil A)) (b - Nat.min n (length l))) as [_|Hne]; [|cbn in Hne; lia]. cbn [bind app].
  replace (Nat.max (Nat.min n (length l)) b) with (Nat.min n (length l)) by lia.
  rewrite firstn_skipn. reflexivity.
Qed.

Lemma python_index E ta M symbols N c : angles_for ta (length E) M -> decision_costs E ta M symbols c ->
  (1 <= M)%nat -> (1 <= N)%nat ->
  exists idx, bps_idx_py E ta symbols N = Ok idx /\ length idx = length E /\
    (forall m, (m < length E)%nat -> ~ interior (length E) N m -> nth_error idx m = Some 0%nat) /\
    (forall m, interior (length E) N m -> exists k, nth_error idx m = Some k /\ first_min (window_cost c N m) M k).
Proof.
  intros Ha Hc HM HN. unfold bps_idx_py. set (L := length E) in *.
  assert (Hrows : (if (length ta =? 1)%nat then let! r := getn ta 0 in Ok (repeat r L)
                   else if (length ta =? L)%nat then Ok ta else Err ValueError)
                  = Ok (map (fun t => frow M (test_angle ta t)) (seq 0 L))).
  { destruct (Nat.eq_dec L 0) as [H0|H0].
    - rewrite H0. cbn [seq map repeat]. destruct Ha as [[Hl Hr]|[Hl Hr]].
      + destruct ta as [|r [|r' ta']]; try discriminate. reflexivity.
      + rewrite Hl, H0. cbn. destruct ta; [reflexivity|cbn in Hl; lia].
    - destruct (Nat.eqb_spec (length ta) 1) as [H1|H1].
      + destruct (angle_row ta L M 0 Ha ltac:(lia)) as (r & Hr & Hf).
        assert (Hr0 : nth_error ta 0 = Some r) by (destruct (1 <? length ta)%nat; exact Hr).
        unfold getn. rewrite Hr0. cbn [bind]. f_equal.
        assert (Hc1 : forall t, frow M (test_angle ta t) = r).
        { intros t. rewrite Hf. apply frow_ext. intros k _. unfold test_angle. rewrite H1. reflexivity. }
        rewrite (map_ext _ (fun _ => r)) by (intros t; apply Hc1).
        clear. generalize 0%nat. induction L as [|L IH]; intros s; [reflexivity|]. cbn. f_equal. apply IH.
      + assert (Hl : length ta = L) by (destruct Ha as [[Hl _]|[Hl _]]; [lia|exact Hl]).
        rewrite Hl, Nat.eqb_refl. f_equal. apply nth_error_ext_lt; [rewrite map_length, seq_length; exact Hl|].
        intros i Hi. rewrite nth_error_map_seq by lia.
        destruct (angle_row ta L M i Ha ltac:(lia)) as (r & Hr & Hf).
        destruct (Nat.ltb_spec 1 (length ta)); [rewrite Hr, Hf; reflexivity|].
        assert (i = 0%nat) by lia. subst i. rewrite Hr, Hf. reflexivity. }
  rewrite Hrows. cbn [bind].
  assert (Hcb : combine E (map (fun t => frow M (test_angle ta t)) (seq 0 L)) =
                map (fun t => (nth t E C0, frow M (test_angle ta t))) (seq 0 L)).
  { rewrite <- combine_map_seq. unfold L. rewrite <- list_as_map. reflexivity. }
  rewrite Hcb, mapM_map.
  rewrite (mapM_ok _ (fun t => frow M (c t))).
  2:{ intros t Ht. apply in_seq in Ht. cbn [fst snd]. unfold frow at 1. rewrite mapM_map.
      apply mapM_ok. intros k Hk. apply in_seq in Hk. apply row_min_least. apply Hc; [fold L; lia|lia]. }
  cbn [bind].
  assert (Hcs : match map (fun t => frow M (c t)) (seq 0 L) with [] => [] | d :: l => d :: cumsum_rows d l end
                = map (fun t => frow M (fun k => rsum (S t) (fun j => c j k))) (seq 0 L)).
  { destruct L as [|L']; [reflexivity|]. cbn [seq map]. rewrite cumsum_rows_ok. apply (f_equal2 cons).
    - apply frow_ext. intros k _. rewrite rsum_S, rsum_0. lra.
    - rewrite <- seq_shift, map_map. apply map_ext. intros u. apply frow_ext. intros k _.
      rewrite (rsum_Sl (S u)). reflexivity. }
  rewrite Hcs. cbv zeta. set (cs := map (fun t => frow M (fun k => rsum (S t) (fun j => c j k))) (seq 0 L)).
  assert (Hlcs : length cs = L) by (unfold cs; rewrite map_length, seq_length; reflexivity).
  assert (Hhi : pyslice_from (2 * Z.of_nat N) cs = skipn (2 * N) cs).
  { unfold pyslice_from. rewrite Hlcs. unfold clipz. destruct (Z.ltb_spec (2 * Z.of_nat N) 0); [lia|].
    destruct (Nat.le_gt_cases (2 * N) L).
    - f_equal. lia.
    - rewrite !skipn_all2; [reflexivity| rewrite Hlcs; lia| rewrite Hlcs; lia]. }
  assert (Hlo : pyslice_to (- (2 * Z.of_nat N)) cs = firstn (L - 2 * N) cs).
  { unfold pyslice_to. rewrite Hlcs. unfold clipz. destruct (Z.ltb_spec (- (2 * Z.of_nat N)) 0); [|lia]. f_equal. lia. }
  rewrite Hhi, Hlo, skipn_length, firstn_length, Hlcs.
  replace (Nat.min (L - 2 * N) L) with (L - 2 * N)%nat by lia. rewrite Nat.eqb_refl. cbn [bind].
  set (mvg := map (fun p => row_op Rminus (fst p) (snd p)) (combine (skipn (2 * N) cs) (firstn (L - 2 * N) cs))).
  assert (Hmvg : mvg = map (fun r => frow M (fun k => window_cost c N (r + N) k)) (seq 0 (L - 2 * N))).
  { apply nth_error_ext_lt.
    - unfold mvg. rewrite !map_length, combine_length, skipn_length, firstn_length, seq_length, Hlcs. lia.
    - intros r Hr. unfold mvg in Hr. rewrite map_length, combine_length, skipn_length, firstn_length, Hlcs in Hr.
      rewrite nth_error_map_seq by lia. unfold mvg. rewrite nth_error_map.
      assert (Hcomb : nth_error (combine (skipn (2 * N) cs) (firstn (L - 2 * N) cs)) r =
        Some (frow M (fun k => rsum (S (2 * N + r)) (fun j => c j k)), frow M (fun k => rsum (S r) (fun j => c j k)))).
      { assert (H1 : nth_error (skipn (2 * N) cs) r = Some (frow M (fun k => rsum (S (2 * N + r)) (fun j => c j k)))).
        { rewrite nth_error_skipn'. unfold cs. rewrite nth_error_map_seq by lia. reflexivity. }
        assert (H2 : nth_error (firstn (L - 2 * N) cs) r = Some (frow M (fun k => rsum (S r) (fun j => c j k)))).
        { rewrite nth_error_firstn_lt by lia. unfold cs. rewrite nth_error_map_seq by lia. reflexivity. }
        revert H1 H2. generalize (skipn (2 * N) cs) (firstn (L - 2 * N) cs). clear. intros a b. revert r a b.
        intros r a. generalize (frow M (fun k => rsum (S (2 * N + r)) (fun j => c j k))) (frow M (fun k => rsum (S r) (fun j => c j k))).
        intros u v. revert r. induction a as [|a0 a IH]; intros [|r] [|b0 b] H1 H2; cbn in *; try discriminate.
        - congruence.
        - apply IH; assumption. }
      rewrite Hcomb. cbn [option_map fst snd]. rewrite row_op_frow. f_equal. apply frow_ext. intros k _.
      unfold window_cost. replace (S (2 * N + r)) with (S r + 2 * N)%nat by lia. rewrite rsum_app.
      rewrite (rsum_ext (2 * N) (fun i => c (S r + i)%nat k) (fun j => c (r + N - N + 1 + j)%nat k)); [rewrite Nat.add_0_l; lra|].
      intros j _. f_equal. lia. }
  fold mvg. rewrite Hmvg, mapM_map. clear mvg Hmvg Hhi Hlo Hcs Hrows.
  set (am := fun r => match argmin (frow M (fun k => window_cost c N (r + N) k)) with Ok i => i | Err _ => 0%nat end).
  rewrite (mapM_ok _ am).
  2:{ intros r _. unfold am. destruct (argmin_ok (frow M (fun k => window_cost c N (r + N) k))) as [i ->]; [|reflexivity].
      intros H0. apply (f_equal (@length R)) in H0. rewrite frow_length in H0. cbn in H0. lia. }
  cbn [bind].
  assert (Ham : forall r, first_min (window_cost c N (r + N)) M (am r)).
  { intros r. unfold am. destruct (argmin_ok (frow M (fun k => window_cost c N (r + N) k))) as [i Hi].
    { intros H0. apply (f_equal (@length R)) in H0. rewrite frow_length in H0. cbn in H0. lia. }
    rewrite Hi. destruct (argmin_spec _ _ Hi) as (d & H1 & H2 & H3).
    assert (HiM : (i < M)%nat) by (apply nth_error_Some_lt in H1; rewrite frow_length in H1; exact H1).
    rewrite frow_nth in H1 by exact HiM. injection H1 as <-. split; [exact HiM|]. split; intros j Hj.
    - apply (H2 j). apply frow_nth. exact Hj.
    - apply (H3 j); [exact Hj|]. apply frow_nth. lia. }
  destruct (Nat.le_gt_cases (2 * N) L) as [HL|HL].
  - rewrite slice_assign_mid by (rewrite ?repeat_length, ?map_length, ?seq_length; lia).
    rewrite !repeat_length. eexists. split; [reflexivity|].
    assert (Hlen : length (firstn N (repeat 0%nat L) ++ map am (seq 0 (L - 2 * N)) ++ skipn (L - N) (repeat 0%nat L)) = L).
    { rewrite !app_length, firstn_length, skipn_length, map_length, seq_length, repeat_length. lia. }
    split; [exact Hlen|].
    assert (Hf : length (firstn N (repeat 0%nat L)) = N) by (rewrite firstn_length, repeat_length; lia).
    split.
    + intros m Hm Hni. unfold interior in Hni. destruct (Nat.lt_ge_cases m N) as [H1|H1].
      * rewrite nth_error_app1 by lia. rewrite nth_error_firstn_lt by lia. apply nth_error_repeat_lt. lia.
      * rewrite nth_error_app2 by lia. rewrite nth_error_app2 by (rewrite map_length, seq_length; lia).
        rewrite map_length, seq_length, nth_error_skipn', Hf. apply nth_error_repeat_lt. lia.
    + intros m [H1 H2]. exists (am (m - N)%nat). split.
      * rewrite nth_error_app2 by lia. rewrite nth_error_app1 by (rewrite map_length, seq_length; lia).
        rewrite Hf. rewrite nth_error_map_seq by lia. reflexivity.
      * pose proof (Ham (m - N)%nat) as H3. replace (m - N + N)%nat with m in H3 by lia. exact H3.
  - replace (L - 2 * N)%nat with 0%nat by lia. cbn [seq map].
    rewrite slice_assign_none by (rewrite repeat_length; lia). exists (repeat 0%nat L). split; [reflexivity|].
    split; [apply repeat_length|]. split; [intros m Hm _; apply nth_error_repeat_lt; exact Hm|].
    intros m [H1 H2]. lia.
Qed.

Lemma first_min_unique f M i j : first_min f M i -> first_min f M j -> i = j.
Proof.
  intros (H1 & H2 & H3) (K1 & K2 & K3). destruct (Nat.lt_trichotomy i j) as [H|[H|H]]; [|exact H|].
  - pose proof (K3 _ H). pose proof (H2 _ K1). lra.
  - pose proof (H3 _ H). pose proof (K2 _ H1). lra.
Qed.

Lemma compiled_index_small E ta M symbols N c : angles_for ta (length E) M -> decision_costs E ta M symbols c ->
  (forall t k, (t < length E)%nat -> (k < M)%nat -> c t k <= 100) ->
  (forall m, interior (length E) N m -> exists k, (k < M)%nat /\ window_cost c N m k < 1000) ->
  exists idx, bps_idx_pyt E ta symbols N = Ok idx /\ length idx = length E /\
    (forall m, (m < length E)%nat -> ~ interior (length E) N m -> nth_error idx m = Some 0%nat) /\
    (forall m, interior (length E) N m -> exists k, nth_error idx m = Some k /\ first_min (window_cost c N m) M k).
Proof.
  intros Ha Hc H100 H1000. destruct (compiled_index E ta M symbols N c Ha Hc) as (idx & E1 & Hl & Ho & Hi).
  exists idx. split; [exact E1|]. split; [exact Hl|]. split; [exact Ho|].
  intros m Hm. destruct (Hi m Hm) as (k & Hk & Hch). exists k. split; [exact Hk|].
  assert (Hw : forall j, (j < M)%nat -> window_cost (capped c) N m j = window_cost c N m j).
  { intros j Hj. unfold window_cost, capped. apply rsum_ext. intros i Hi'. apply Rmin_left. destruct Hm as [Hm1 Hm2]. apply H100; [lia|exact Hj]. }
  destruct Hch as [[Hall _]|[(HkM & Hmin & Hf) _]].
  - destruct (H1000 m Hm) as (j & Hj & Hlt). specialize (Hall j Hj). rewrite (Hw j Hj) in Hall. lra.
  - split; [exact HkM|]. split; intros j Hj.
    + rewrite <- !Hw by assumption. apply Hmin. exact Hj.
    + rewrite <- !Hw by lia. apply Hf. exact Hj.
Qed.

Lemma index_agree E ta M symbols N c : angles_for ta (length E) M -> decision_costs E ta M symbols c ->
  (1 <= M)%nat -> (1 <= N)%nat ->
  (forall t k, (t < length E)%nat -> (k < M)%nat -> c t k <= 100) ->
  (forall m, interior (length E) N m -> exists k, (k < M)%nat /\ window_cost c N m k < 1000) ->
  bps_idx_pyt E ta symbols N = bps_idx_py E ta symbols N.
Proof.
  intros Ha Hc HM HN H1 H2.
  destruct (compiled_index_small E ta M symbols N c Ha Hc H1 H2) as (i1 & E1 & L1 & O1 & I1).
  destruct (python_index E ta M symbols N c Ha Hc HM HN) as (i2 & E2 & L2 & O2 & I2).
  rewrite E1, E2. f_equal. apply nth_error_ext_lt; [congruence|]. intros m Hm. rewrite L1 in Hm.
  assert (Hd : interior (length E) N m \/ ~ interior (length E) N m) by (unfold interior; lia).
  destruct Hd as [Hd|Hd]; [|rewrite O1, O2 by assumption; reflexivity].
  destruct (I1 m Hd) as (k1 & -> & F1). destruct (I2 m Hd) as (k2 & -> & F2).
  f_equal. eapply first_min_unique; eassumption.
Qed.
