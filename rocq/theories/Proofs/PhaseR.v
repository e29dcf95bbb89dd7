(** Pilot-based carrier phase estimation. *)
From Coq Require Import String List Arith ZArith Bool Lia Reals Lra.
From Verif Require Import Common.Py Common.ListX Common.Cplx Common.SumX Common.Angle Model.Windows Model.Quality
  Model.Sync Model.Pilots Model.Phase Spec.Seq Spec.Equal Spec.Win Spec.Frames Spec.PhaseSpec Proofs.WindowsP Proofs.PhaseP Proofs.PhaseQ Proofs.PhaseV.
Import ListNotations.
Local Open Scope R_scope.

(** ** interpolation *)
Lemma pos_mono (pos : nat -> nat) lo hi : (forall q, (lo <= q < hi)%nat -> (pos q < pos (S q))%nat) ->
  forall a b, (lo <= a)%nat -> (a <= b)%nat -> (b <= hi)%nat -> (pos a <= pos b)%nat.
Proof.
  intros H a b Ha Hab Hb. induction Hab as [|b Hab IH]; [lia|]. specialize (IH ltac:(lia)). specialize (H b ltac:(lia)). lia.
Qed.
Lemma interp_from_ok (pos : nat -> nat) (v : nat -> R) t cnt : forall lo,
  (forall q, (lo <= q < lo + cnt)%nat -> (pos q < pos (S q))%nat) -> (pos lo <= t)%nat ->
  interpolates pos v lo (lo + cnt) t (interp_from (pos lo) (v lo) (map (fun q => (pos q, v q)) (seq (S lo) cnt)) t).
Proof.
  induction cnt as [|cnt IH]; intros lo Hinc Ht; cbn [seq map interp_from].
  - rewrite Nat.add_0_r. split; [reflexivity|]. split; [reflexivity|]. intros q Hq. lia.
  - pose proof (Hinc lo ltac:(lia)) as H0.
    destruct (Nat.ltb_spec t (pos (S lo))) as [Hlt|Hge].
    + assert (Hd : INR (pos (S lo)) - INR (pos lo) <> 0) by (apply lt_INR in H0; lra).
      split; [|split].
      * intros Hle. assert (t = pos lo) by lia. subst t. replace (INR (pos lo) - INR (pos lo)) with 0 by ring. ring.
      * intros Hhi. exfalso. pose proof (pos_mono pos lo (lo + S cnt) Hinc (S lo) (lo + S cnt)%nat ltac:(lia) ltac:(lia) ltac:(lia)). lia.
      * intros q Hq [Hq1 Hq2]. destruct (Nat.eq_dec q lo) as [->|Hne]; [field; exact Hd|].
        exfalso. pose proof (pos_mono pos lo (lo + S cnt) Hinc (S lo) q ltac:(lia) ltac:(lia) ltac:(lia)). lia.
    + destruct (IH (S lo) ltac:(intros q Hq; apply Hinc; lia) Hge) as (I1 & I2 & I3).
      replace (S lo + cnt)%nat with (lo + S cnt)%nat in * by lia.
      split; [intros; lia|]. split; [exact I2|]. intros q Hq [Hq1 Hq2].
      destruct (Nat.eq_dec q lo) as [->|Hne]; [|apply I3; lia].
      assert (t = pos (S lo)) by lia. subst t. rewrite I1 by lia. ring.
Qed.
Lemma interp_ok (pos : nat -> nat) (v : nat -> R) t cnt lo :
  (forall q, (lo <= q < lo + cnt)%nat -> (pos q < pos (S q))%nat) ->
  exists y, interp (map (fun q => (pos q, v q)) (seq lo (S cnt))) t = Ok y /\ interpolates pos v lo (lo + cnt) t y.
Proof.
  intros Hinc. cbn [seq map interp]. destruct (Nat.ltb_spec t (pos lo)) as [Hlt|Hge].
  - eexists. split; [reflexivity|]. split; [reflexivity|]. split.
    + intros Hhi. exfalso. pose proof (pos_mono pos lo (lo + cnt) Hinc lo (lo + cnt)%nat ltac:(lia) ltac:(lia) ltac:(lia)). lia.
    + intros q Hq [Hq1 Hq2]. exfalso. pose proof (pos_mono pos lo (lo + cnt) Hinc lo q ltac:(lia) ltac:(lia) ltac:(lia)). lia.
  - eexists. split; [reflexivity|]. apply interp_from_ok; assumption.
Qed.

(** ** averaging *)
Lemma mavg_real Q u A : (1 <= A <= Q)%nat ->
  moving_average_real (frow Q u) A = Ok (frow (Q + 1 - A) (fun i => mean_at u i A)).
Proof.
  intros [HA HQ]. unfold moving_average_real.
  destruct (mavg (map RtoC (frow Q u)) A HA) as (out & Ho & Hl & Hn); [rewrite map_length, frow_length; lia|].
  rewrite map_length, frow_length in Hl, Hn. rewrite Ho. cbn [bind]. apply f_equal.
  apply nth_error_ext_lt; [rewrite map_length, frow_length; exact Hl|].
  intros i Hi0. assert (Hi : (i < Q + 1 - A)%nat) by (rewrite <- Hl; rewrite map_length in Hi0; exact Hi0).
  rewrite frow_nth by exact Hi. rewrite nth_error_map.
  match goal with |- context [nth_error ?o i] => change (nth_error o i) with (nth_error (out : list C) i) end.
  rewrite (Hn i Hi). cbn [option_map]. f_equal.
  unfold window_mean, mean_at, rsum. cbn [Cscal fst]. rewrite Re_Csum.
  assert (He : map fst (firstn A (skipn i (map RtoC (frow Q u)))) = map (fun j => u (i + j)%nat) (seq 0 A)).
  { rewrite skipn_map, firstn_map, map_map. cbn [RtoC fst]. apply nth_error_ext_lt.
    - rewrite !map_length, firstn_length, skipn_length, frow_length, seq_length. lia.
    - intros j Hj. rewrite map_length, firstn_length, skipn_length, frow_length in Hj.
      rewrite nth_error_map, nth_error_firstn_lt, nth_error_skipn', frow_nth by lia. rewrite nth_error_map_seq by lia. reflexivity. }
  rewrite He. unfold Rdiv. rewrite Rmult_comm. reflexivity.
Qed.
Lemma mean_at_add u i A c : (1 <= A)%nat -> mean_at (fun q => u q + c) i A = mean_at u i A + c.
Proof.
  intros HA. unfold mean_at. rewrite (rsum_add A (fun j => u (i + j)%nat)), rsum_const. field.
  assert (0 < INR A) by (apply lt_0_INR; lia). lra.
Qed.
Lemma mean_at_ext u w i A : (forall j, (j < A)%nat -> u (i + j)%nat = w (i + j)%nat) -> mean_at u i A = mean_at w i A.
Proof. intros H. unfold mean_at. rewrite (rsum_ext A _ (fun j => w (i + j)%nat)) by exact H. reflexivity. Qed.

Lemma odd_half A : Nat.odd A = true -> (A = 2 * ((A - 1) / 2) + 1)%nat.
Proof.
  intros H. apply Nat.odd_spec in H as [h ->]. replace (2 * h + 1 - 1)%nat with (h * 2)%nat by lia. rewrite Nat.div_mul by lia. lia.
Qed.

(** ** the phase trace of one mode *)
Lemma cpe_trace_ok (pos : nat -> nat) Q refs rec ph A nlen : length refs = Q -> (3 <= A <= Q)%nat -> Nat.odd A = true ->
  (forall q, (S q < Q)%nat -> (pos q < pos (S q))%nat) -> received refs rec ph ->
  (forall q, (S q < Q)%nat -> Rabs (ph (S q) - ph q) < PI) ->
  exists tr c, cpe_trace (map pos (seq 0 Q)) refs rec A nlen = Ok tr /\ length tr = nlen /\ turns c /\
    forall t, (t < nlen)%nat -> exists y, nth_error tr t = Some y /\
      interpolates pos (fun q => mean_at ph (q - (A - 1) / 2) A + c) ((A - 1) / 2) (Q - 1 - (A - 1) / 2) t y.
Proof.
  intros HQ [HA1 HA2] Hodd Hinc Hrec Hst. pose proof (odd_half A Hodd) as Hh. set (h := ((A - 1) / 2)%nat) in *.
  destruct (phase_diff_received _ _ _ Hrec) as (f & Hf & Ht). rewrite HQ in *.
  unfold cpe_trace. rewrite Hf, (unwrap_tracks f ph Q ltac:(lia) Ht Hst). set (c := f 0%nat - ph 0%nat).
  assert (Hc : turns c) by (apply Ht; lia).
  rewrite mavg_real by lia. cbn [bind]. cbv zeta. fold h.
  assert (Hidx : pyslice (Z.of_nat h) (- Z.of_nat h) (map pos (seq 0 Q)) = map pos (seq h (Q - 2 * h))).
  { unfold pyslice. rewrite map_length, seq_length.
    assert (Ha : clipz (Z.of_nat Q) (Z.of_nat h) = Z.of_nat h) by (apply clipz_pos; lia).
    assert (Hb : clipz (Z.of_nat Q) (- Z.of_nat h) = Z.of_nat (Q - h)).
    { unfold clipz. destruct (Z.ltb_spec (- Z.of_nat h) 0); lia. }
    rewrite Ha, Hb. replace (Z.to_nat (Z.of_nat (Q - h) - Z.of_nat h)) with (Q - 2 * h)%nat by lia. rewrite Nat2Z.id.
    apply nth_error_ext_lt; [rewrite firstn_length, skipn_length, !map_length, !seq_length; lia|].
    intros i Hi. rewrite firstn_length, skipn_length, map_length, seq_length in Hi.
    rewrite nth_error_firstn_lt, nth_error_skipn' by lia. rewrite !nth_error_map_seq by lia. reflexivity. }
  rewrite Hidx, map_length, seq_length, frow_length.
  replace (Q + 1 - A)%nat with (Q - 2 * h)%nat by lia. rewrite Nat.eqb_refl. cbn [negb].
  set (v := fun q => mean_at ph (q - h) A + c).
  assert (Hpts : combine (map pos (seq h (Q - 2 * h))) (frow (Q - 2 * h) (fun i => mean_at (fun q => ph q + c) i A)) =
    map (fun q => (pos q, v q)) (seq h (S (Q - 2 * h - 1)))).
  { replace (S (Q - 2 * h - 1)) with (Q - 2 * h)%nat by lia. rewrite <- combine_map_seq. f_equal.
    apply nth_error_ext_lt; [rewrite frow_length, map_length, seq_length; reflexivity|].
    intros i Hi. rewrite frow_length in Hi. rewrite frow_nth, nth_error_map_seq by exact Hi. f_equal. unfold v.
    replace (h + i - h)%nat with i by lia. apply mean_at_add. lia. }
  rewrite Hpts.
  assert (Hi : forall t, exists y, interp (map (fun q => (pos q, v q)) (seq h (S (Q - 2 * h - 1)))) t = Ok y /\
    interpolates pos v h (Q - 1 - h) t y).
  { intros t. destruct (interp_ok pos v t (Q - 2 * h - 1) h) as (y & Y1 & Y2); [intros q Hq; apply Hinc; lia|].
    exists y. split; [exact Y1|]. replace (Q - 1 - h)%nat with (h + (Q - 2 * h - 1))%nat by lia. exact Y2. }
  assert (Hm : exists tr, mapM (interp (map (fun q => (pos q, v q)) (seq h (S (Q - 2 * h - 1))))) (seq 0 nlen) = Ok tr).
  { clear -Hi. generalize (seq 0 nlen). intros l. induction l as [|t l IH]; [eexists; reflexivity|].
    cbn [mapM]. destruct (Hi t) as (y & -> & _). destruct IH as [tr ->]. eexists. reflexivity. }
  destruct Hm as [tr Htr]. exists tr, c. split; [exact Htr|]. split; [rewrite (mapM_length _ _ _ Htr), seq_length; reflexivity|].
  split; [exact Hc|]. intros t Htl.
  assert (Hs : nth_error (seq 0 nlen) t = Some t) by (rewrite nth_error_seq by exact Htl; reflexivity).
  destruct (mapM_nth _ _ _ t t Htr Hs) as (y & Y1 & Y2). destruct (Hi t) as (y' & Y3 & Y4).
  exists y. split; [exact Y1|]. rewrite Y2 in Y3. injection Y3 as <-. exact Y4.
Qed.

(** ** positions of the pilots *)
Lemma flat_positions sel fl n : flat_map (fun f => map (fun k => (k + f * fl)%nat) sel) (seq 0 n) =
  map (pilot_at sel fl) (seq 0 (n * length sel)).
Proof.
  assert (He : flat_map (fun f => map (fun k => (k + f * fl)%nat) sel) (seq 0 n) =
               grid n (length sel) (fun f j => (nth j sel 0 + f * fl)%nat)).
  { unfold grid. apply flat_map_ext. intros f. rewrite (list_as_map 0%nat sel) at 1. rewrite map_map. reflexivity. }
  rewrite He. apply nth_error_ext_lt; [rewrite grid_length, map_length, seq_length; reflexivity|].
  intros q Hq. rewrite grid_length in Hq. rewrite grid_nth_divmod by exact Hq. rewrite nth_error_map_seq by exact Hq. reflexivity.
Qed.
Lemma divmod_S q P : (1 <= P)%nat -> (S (q mod P) < P /\ (S q) / P = q / P /\ (S q) mod P = S (q mod P))%nat \/
  (S (q mod P) = P /\ (S q) / P = S (q / P) /\ (S q) mod P = 0)%nat.
Proof.
  intros HP. pose proof (Nat.div_mod q P ltac:(lia)) as Hd. pose proof (Nat.mod_upper_bound q P ltac:(lia)) as Hm.
  destruct (Nat.eq_dec (S (q mod P)) P) as [He|Hne].
  - right. split; [exact He|]. assert (Hs : S q = (P * S (q / P) + 0)%nat) by lia.
    split; [symmetry; apply (Nat.div_unique _ _ _ 0); lia|symmetry; apply (Nat.mod_unique _ _ (S (q / P)) 0); lia].
  - left. split; [lia|]. split; [symmetry; apply (Nat.div_unique _ _ _ (S (q mod P))); lia|symmetry; apply (Nat.mod_unique _ _ (q / P) (S (q mod P))); lia].
Qed.
Lemma pilot_at_inc sel fl q : increasing sel -> (forall k, In k sel -> (k < fl)%nat) -> sel <> [] -> (pilot_at sel fl q < pilot_at sel fl (S q))%nat.
Proof.
  intros Hi Hb Hne. unfold pilot_at. assert (HP : (1 <= length sel)%nat) by (destruct sel; [congruence|cbn; lia]).
  pose proof (Nat.mod_upper_bound q (length sel) ltac:(lia)) as Hm.
  pose proof (nth_error_nth' sel 0%nat Hm) as Hq.
  destruct (divmod_S q (length sel) HP) as [(H1 & H2 & H3)|(H1 & H2 & H3)]; rewrite H2, H3.
  - pose proof (nth_error_nth' sel 0%nat H1) as Hq'. pose proof (Hi _ _ _ _ (Nat.lt_succ_diag_r _) Hq Hq'). lia.
  - assert (nth (q mod length sel) sel 0 < fl)%nat by (apply Hb; apply nth_In; exact Hm). cbn [Nat.mul]. lia.
Qed.
Lemma pilot_at_bound sel fl q n : (forall k, In k sel -> (k < fl)%nat) -> (q < n * length sel)%nat -> (pilot_at sel fl q < n * fl)%nat.
Proof.
  intros Hb Hq. unfold pilot_at. assert (HP : length sel <> 0%nat) by lia.
  pose proof (Nat.mod_upper_bound q (length sel) HP) as Hm.
  assert (nth (q mod length sel) sel 0 < fl)%nat by (apply Hb; apply nth_In; exact Hm).
  assert (q / length sel < n)%nat by (apply Nat.div_lt_upper_bound; lia). nia.
Qed.
Lemma every_nth_stride {A} ratio (l sel : list A) : (1 <= ratio)%nat -> every_nth ratio l sel -> stride ratio l = sel.
Proof.
  intros Hr [Hl Hn]. apply nth_error_ext. intros i. rewrite stride_nth by lia. symmetry. apply Hn.
Qed.
Lemma filter_all {A} (p : A -> bool) l : (forall a, In a l -> p a = true) -> filter p l = l.
Proof. induction l as [|a l IH]; intros H; [reflexivity|]. cbn [filter]. rewrite H by (left; reflexivity). f_equal. apply IH. intros b Hb. apply H. right. exact Hb. Qed.
Lemma cpe_idx_ok pidx fl ratio mb n sel nlen : (1 <= ratio)%nat -> every_nth ratio (limited mb pidx) sel ->
  (forall k, In k sel -> (k < fl)%nat) -> (n * fl <= nlen)%nat ->
  cpe_idx pidx fl ratio mb n nlen = map (pilot_at sel fl) (seq 0 (n * length sel)).
Proof.
  intros Hr Hs Hb Hn. unfold cpe_idx. change (match mb with None => pidx | Some b => firstn b pidx end) with (limited mb pidx).
  rewrite (every_nth_stride _ _ _ Hr Hs), flat_positions. apply filter_all. intros p Hp.
  apply in_map_iff in Hp as (q & <- & Hq). apply in_seq in Hq. apply Nat.ltb_lt.
  pose proof (pilot_at_bound sel fl q n Hb ltac:(lia)). lia.
Qed.

(** ** the whole estimate *)
Lemma cpe_refs_row (prow : list C) ratio n P : (1 <= ratio)%nat -> (P <= strided (length prow) ratio)%nat ->
  let rf := firstn (n * P) (tile n (stride ratio prow)) in
  length rf = (n * P)%nat /\
  forall q, (q < n * P)%nat -> nth_error rf q = nth_error prow ((q mod strided (length prow) ratio) * ratio).
Proof.
  intros Hr H. cbv zeta. pose proof (stride_length ratio prow ltac:(lia)) as Hsl. unfold strided in *. rewrite <- Hsl in *.
  assert (Hle : (n * P <= n * length (stride ratio prow))%nat) by (apply Nat.mul_le_mono_l; exact H).
  split; [rewrite firstn_length, tile_length; lia|].
  intros q Hq. rewrite nth_error_firstn_lt by exact Hq. rewrite tile_nth by lia. apply stride_nth. lia.
Qed.

Section CPE.
Variables (signal pilots : list (list C)) (pidx : list nat) (fl avg ratio : nat) (mb : option nat) (n : nat).
Variables (sel : list nat) (ph : nat -> nat -> R) (Ls : nat).
Let P := length sel.
Let A := odd_up avg.
Hypothesis (Havg : (1 < avg)%nat).
Hypothesis (Hratio : (1 <= ratio)%nat).
Hypothesis (Hsel : every_nth ratio (limited mb pidx) sel).
Hypothesis (Hinc : increasing sel).
Hypothesis (Hbnd : forall k, In k sel -> (k < fl)%nat).
Hypothesis (Hne : signal <> []).
Hypothesis (Hrect : rect signal Ls).
Hypothesis (HLs : (n * fl <= Ls)%nat).
Hypothesis (Hmodes : length pilots = length signal).
Hypothesis (HA : (A <= n * P)%nat).
Hypothesis (Hcount : forall k prow, nth_error pilots k = Some prow -> (P <= strided (length prow) ratio)%nat).
Hypothesis (Hrec : forall k row prow q, nth_error signal k = Some row -> nth_error pilots k = Some prow -> (q < n * P)%nat ->
  exists a rho, nth_error prow ((q mod strided (length prow) ratio) * ratio) = Some a /\ a <> C0 /\ 0 < rho /\
    nth_error row (pilot_at sel fl q) = Some (Cscal rho (a * Cexpi (ph k q))%C)).
Hypothesis (Hstep : forall k q, (k < length signal)%nat -> (S q < n * P)%nat -> Rabs (ph k (S q) - ph k q) < PI).

Let h := ((A - 1) / 2)%nat.
Lemma cpe_ok : exists out tr, pilot_based_cpe_new signal pilots pidx fl avg ratio mb n = Ok (out, tr) /\
  length tr = length signal /\
  rotated_by (fun k t => - cell 0 tr k t) (map (firstn (n * fl)) signal) out /\
  forall k, (k < length signal)%nat -> exists c, turns c /\ forall t, (t < n * fl)%nat ->
    interpolates (pilot_at sel fl) (fun q => mean_at (ph k) (q - h) A + c) h (n * P - 1 - h) t (cell 0 tr k t).
Proof.
  assert (HAodd : Nat.odd A = true).
  { unfold A, odd_up. destruct (Nat.odd avg) eqn:E; [exact E|]. rewrite Nat.odd_succ. rewrite <- Nat.negb_odd, E. reflexivity. }
  assert (HA3 : (3 <= A)%nat).
  { unfold A, odd_up in *. destruct (Nat.odd avg) eqn:E; [|lia]. destruct (Nat.eq_dec avg 2) as [->|]; [discriminate E|lia]. }
  assert (HP1 : (1 <= P)%nat) by (destruct P; lia).
  assert (Hselne : sel <> []) by (intros E; unfold P in HP1; rewrite E in HP1; cbn in HP1; lia).
  assert (Hrl : row_len signal = Ls).
  { destruct signal as [|r l]; [congruence|]. cbn. inversion Hrect; subst. reflexivity. }
  unfold pilot_based_cpe_new. destruct (Nat.ltb_spec 1 avg) as [_|]; [|lia]. cbn [negb].
  change (if Nat.odd avg then avg else S avg) with A. destruct (Nat.eqb_spec ratio 0) as [|_]; [lia|]. cbv zeta.
  rewrite Hrl. replace (Nat.min (fl * n) Ls) with (n * fl)%nat by lia.
  rewrite (cpe_idx_ok pidx fl ratio mb n sel (n * fl) Hratio Hsel Hbnd ltac:(lia)). fold P.
  set (idx := map (pilot_at sel fl) (seq 0 (n * P))).
  assert (Hil : length idx = (n * P)%nat) by (unfold idx; rewrite map_length, seq_length; reflexivity).
  assert (Hfg : mapM (fancy_get idx) signal = Ok (map (fun row => map (fun i => nth i row C0) idx) signal)).
  { apply mapM_ok. intros row Hin. unfold fancy_get. apply mapM_ok. intros i Hi. unfold idx in Hi.
    apply in_map_iff in Hi as (q & <- & Hq). apply in_seq in Hq. unfold getn.
    rewrite (nth_error_nth' row C0); [reflexivity|].
    unfold rect in Hrect. rewrite Forall_forall in Hrect. rewrite (Hrect row Hin).
    pose proof (pilot_at_bound sel fl q n Hbnd ltac:(fold P; lia)). lia. }
  rewrite Hfg. cbn [bind]. rewrite Hil. unfold cpe_refs.
  set (rec := map (fun row => map (fun i => nth i row C0) idx) signal).
  set (refs := map (fun row => firstn (n * P) (tile n (stride ratio row))) pilots).
  assert (Hlr : length rec = length signal) by apply map_length.
  assert (Hlf : length refs = length signal) by (unfold refs; rewrite map_length; exact Hmodes).
  assert (Hboth : forall k, (k < length signal)%nat -> exists rc rf, nth_error rec k = Some rc /\ nth_error refs k = Some rf /\
    length rc = (n * P)%nat /\ length rf = (n * P)%nat /\ received rf rc (ph k)).
  { intros k Hk. destruct (nth_error_lt_Some signal k Hk) as [row Hrow].
    destruct (nth_error_lt_Some pilots k ltac:(lia)) as [prow Hprow].
    destruct (cpe_refs_row prow ratio n P Hratio (Hcount k prow Hprow)) as [R1 R2]. cbv zeta in R1, R2.
    eexists _, _. split; [unfold rec; rewrite nth_error_map, Hrow; reflexivity|].
    split; [unfold refs; rewrite nth_error_map, Hprow; reflexivity|].
    split; [rewrite map_length; exact Hil|]. split; [exact R1|]. split; [rewrite map_length, Hil; symmetry; exact R1|].
    intros q a Hq. pose proof (nth_error_Some_lt _ _ _ Hq) as Hql. rewrite R1 in Hql. rewrite (R2 q Hql) in Hq.
    destruct (Hrec k row prow q Hrow Hprow Hql) as (a' & rho & E1 & E2 & E3 & E4). rewrite E1 in Hq. injection Hq as <-.
    split; [exact E2|]. exists rho. split; [exact E3|]. unfold idx. rewrite map_map, nth_error_map_seq by exact Hql.
    rewrite Nat.add_0_l, (nth_error_nth _ _ C0 E4). reflexivity. }
  rewrite Hlr, Hlf, Nat.eqb_refl.
  assert (Hfb : forallb (fun p => (length (fst p) =? length (snd p))%nat) (combine rec refs) = true).
  { apply forallb_forall. intros [rc rf] Hin. apply In_nth_error in Hin as [k Hk].
    pose proof (nth_error_Some_lt _ _ _ Hk) as Hkl. rewrite combine_length in Hkl.
    destruct (Hboth k ltac:(lia)) as (rc' & rf' & B1 & B2 & B3 & B4 & _).
    rewrite (combine_nth' _ _ _ _ _ B1 B2) in Hk. injection Hk as <- <-. cbn [fst snd]. rewrite B3, B4. apply Nat.eqb_refl. }
  rewrite Hfb. cbn [andb negb].
  assert (Hrl2 : row_len refs = (n * P)%nat).
  { destruct (Hboth 0%nat ltac:(destruct signal; [congruence|cbn; lia])) as (rc & rf & _ & B2 & _ & B4 & _).
    destruct refs as [|r l]; [discriminate|]. cbn in B2. injection B2 as ->. exact B4. }
  rewrite Hrl2. destruct (Nat.leb_spec A (n * P)) as [_|]; [|lia]. cbn [negb].
  assert (Htr : forall k, (k < length signal)%nat -> exists rc rf tr c, nth_error (combine rec refs) k = Some (rc, rf) /\
    cpe_trace idx rf rc A (n * fl) = Ok tr /\ length tr = (n * fl)%nat /\ turns c /\
    forall t, (t < n * fl)%nat -> exists y, nth_error tr t = Some y /\
      interpolates (pilot_at sel fl) (fun q => mean_at (ph k) (q - h) A + c) h (n * P - 1 - h) t y).
  { intros k Hk. destruct (Hboth k Hk) as (rc & rf & B1 & B2 & B3 & B4 & B5).
    destruct (cpe_trace_ok (pilot_at sel fl) (n * P) rf rc (ph k) A (n * fl) B4 ltac:(lia) HAodd) as (tr & c & T1 & T2 & T3 & T4).
    - intros q _. apply pilot_at_inc; assumption.
    - exact B5.
    - intros q Hq. apply Hstep; assumption.
    - exists rc, rf, tr, c. split; [apply combine_nth'; assumption|]. split; [exact T1|]. split; [exact T2|]. split; [exact T3|exact T4]. }
  assert (Htrs : exists trs, mapM (fun p => cpe_trace idx (snd p) (fst p) A (n * fl)) (combine rec refs) = Ok trs).
  { assert (Hall : forall p, In p (combine rec refs) -> exists tr, cpe_trace idx (snd p) (fst p) A (n * fl) = Ok tr).
    { intros p Hin. apply In_nth_error in Hin as [k Hk]. pose proof (nth_error_Some_lt _ _ _ Hk) as Hkl. rewrite combine_length in Hkl.
      destruct (Htr k ltac:(lia)) as (rc & rf & tr & c & E1 & E2 & _). rewrite Hk in E1. injection E1 as ->. exists tr. exact E2. }
    clear -Hall. induction (combine rec refs) as [|p l IH]; [eexists; reflexivity|]. cbn [mapM].
    destruct (Hall p (or_introl eq_refl)) as [tr ->]. destruct IH as [trs ->]; [intros p' Hp'; apply Hall; right; exact Hp'|]. eexists. reflexivity. }
  destruct Htrs as [trs Htrs]. rewrite Htrs. cbn [bind].
  pose proof (mapM_length _ _ _ Htrs) as Htl. rewrite combine_length in Htl.
  assert (Hk : forall k, (k < length signal)%nat -> exists tr c, nth_error trs k = Some tr /\ length tr = (n * fl)%nat /\ turns c /\
    forall t, (t < n * fl)%nat -> exists y, nth_error tr t = Some y /\
      interpolates (pilot_at sel fl) (fun q => mean_at (ph k) (q - h) A + c) h (n * P - 1 - h) t y).
  { intros k Hkl. destruct (Htr k Hkl) as (rc & rf & tr & c & E1 & E2 & E3).
    destruct (mapM_nth _ _ _ k _ Htrs E1) as (tr' & F1 & F2). cbn [fst snd] in F2. rewrite E2 in F2. injection F2 as <-.
    exists tr, c. split; [exact F1|exact E3]. }
  assert (Hrows : forall k row, nth_error signal k = Some row -> length row = Ls).
  { intros k row Hr. unfold rect in Hrect. rewrite Forall_forall in Hrect. apply Hrect. eapply nth_error_In; exact Hr. }
  destruct (rotate_rows_ok (map (firstn (n * fl)) signal) (map (map Ropp) trs)) as [out Hout].
  { apply Forall2_from_nth; [rewrite !map_length; lia|]. intros k a b Ha Hb. rewrite nth_error_map in Ha. rewrite nth_error_map in Hb.
    destruct (nth_error signal k) as [row|] eqn:Er; [|discriminate]. destruct (nth_error trs k) as [tr|] eqn:Et; [|discriminate].
    cbn [option_map] in Ha, Hb. injection Ha as <-. injection Hb as <-. rewrite map_length, firstn_length, (Hrows k row Er).
    destruct (Hk k (nth_error_Some_lt _ _ _ Er)) as (tr' & c & T1 & T2 & _). rewrite Et in T1. injection T1 as <-. lia. }
  rewrite Hout. cbn [bind]. apply rotate_rows_spec in Hout as (_ & _ & Hol & Hor). rewrite map_length in Hol.
  assert (Hfo : map (firstn (n * fl)) out = out).
  { rewrite <- (map_id out) at 2. apply map_ext_in. intros row' Hin. apply In_nth_error in Hin as [k Hko].
    pose proof (nth_error_Some_lt _ _ _ Hko) as Hkl. destruct (nth_error_lt_Some signal k ltac:(lia)) as [row Hrow].
    destruct (Hor k (firstn (n * fl) row)) as (r' & R1 & R2 & _); [rewrite nth_error_map, Hrow; reflexivity|].
    rewrite Hko in R1. injection R1 as <-. apply firstn_all2. rewrite R2, firstn_length. lia. }
  assert (Hft : map (firstn (n * fl)) trs = trs).
  { rewrite <- (map_id trs) at 2. apply map_ext_in. intros tr Hin. apply In_nth_error in Hin as [k Hko].
    pose proof (nth_error_Some_lt _ _ _ Hko) as Hkl. destruct (Hk k ltac:(lia)) as (tr' & c & T1 & T2 & _).
    rewrite Hko in T1. injection T1 as <-. apply firstn_all2. lia. }
  replace (n * fl)%nat with (n * fl)%nat by reflexivity. rewrite Hfo, Hft.
  exists out, trs. split; [reflexivity|]. split; [lia|]. split.
  - split; [rewrite map_length; exact Hol|]. intros k row Hr. destruct (Hor k row Hr) as (r' & R1 & R2 & R3).
    exists r'. split; [exact R1|]. split; [exact R2|]. intros t s Hs. rewrite (R3 t s Hs). repeat f_equal.
    rewrite nth_error_map in Hr. destruct (nth_error signal k) as [row0|] eqn:Er; [|discriminate].
    cbn [option_map] in Hr. injection Hr as <-.
    pose proof (nth_error_Some_lt _ _ _ Hs) as Htl2. rewrite firstn_length in Htl2.
    destruct (Hk k (nth_error_Some_lt _ _ _ Er)) as (tr & c & T1 & T2 & _ & T4). destruct (T4 t ltac:(lia)) as (y & Y1 & _).
    unfold cell. rewrite (nth_error_nth (map (map Ropp) trs) k [] (x := map Ropp tr)) by (rewrite nth_error_map, T1; reflexivity).
    rewrite (nth_error_nth trs k [] T1), (nth_error_nth tr t 0 Y1).
    apply nth_error_nth. rewrite nth_error_map, Y1. reflexivity.
  - intros k Hkl. destruct (Hk k Hkl) as (tr & c & T1 & T2 & T3 & T4). exists c. split; [exact T3|]. intros t Ht.
    destruct (T4 t Ht) as (y & Y1 & Y2). unfold cell. rewrite (nth_error_nth trs k [] T1), (nth_error_nth tr t 0 Y1). exact Y2.
Qed.
End CPE.

(** ** consequences *)
Lemma bracket (pos : nat -> nat) t lo cnt : (pos lo <= t)%nat -> (t <= pos (lo + cnt))%nat ->
  t = pos lo \/ exists q, (lo <= q < lo + cnt)%nat /\ (pos q <= t <= pos (S q))%nat.
Proof.
  induction cnt as [|cnt IH]; intros H1 H2; [left; rewrite Nat.add_0_r in H2; lia|].
  destruct (le_lt_dec t (pos (lo + cnt)%nat)) as [H|H].
  - destruct (IH H1 H) as [E|(q & Hq & Hb)]; [left; exact E|right; exists q; split; [lia|exact Hb]].
  - right. exists (lo + cnt)%nat. split; [lia|]. replace (S (lo + cnt)) with (lo + S cnt)%nat by lia. lia.
Qed.
Lemma interpolates_affine (pos : nat -> nat) v lo hi t y a b : (lo <= hi)%nat ->
  (forall q, (lo <= q < hi)%nat -> (pos q < pos (S q))%nat) ->
  (forall q, (lo <= q <= hi)%nat -> v q = a + b * INR (pos q)) -> interpolates pos v lo hi t y ->
  (pos lo <= t <= pos hi)%nat -> y = a + b * INR t.
Proof.
  intros Hle Hinc Hv (I1 & I2 & I3) [Ht1 Ht2]. replace hi with (lo + (hi - lo))%nat in Ht2 by lia.
  destruct (bracket pos t lo (hi - lo) Ht1 Ht2) as [->|(q & Hq & Hb)].
  - rewrite I1 by lia. apply Hv. lia.
  - specialize (I3 q ltac:(lia) Hb). pose proof (Hinc q ltac:(lia)) as Hlt. apply lt_INR in Hlt.
    rewrite (Hv q ltac:(lia)), (Hv (S q) ltac:(lia)) in I3.
    apply (Rmult_eq_reg_r (INR (pos (S q)) - INR (pos q))); [|lra]. rewrite I3. ring.
Qed.
Lemma interpolates_const (pos : nat -> nat) v lo hi t y a : (lo <= hi)%nat ->
  (forall q, (lo <= q < hi)%nat -> (pos q < pos (S q))%nat) ->
  (forall q, (lo <= q <= hi)%nat -> v q = a) -> interpolates pos v lo hi t y -> y = a.
Proof.
  intros Hle Hinc Hv Hi. destruct Hi as (I1 & I2 & I3).
  destruct (le_lt_dec t (pos lo)) as [H1|H1]; [rewrite I1 by exact H1; apply Hv; lia|].
  destruct (le_lt_dec (pos hi) t) as [H2|H2]; [rewrite I2 by exact H2; apply Hv; lia|].
  rewrite (interpolates_affine pos v lo hi t y a 0 Hle Hinc); [ring| |split; [exact I1|split; assumption]|lia].
  intros q Hq. rewrite Hv by exact Hq. ring.
Qed.

Lemma odd_up_bounds avg : (1 < avg)%nat -> Nat.odd (odd_up avg) = true /\ (3 <= odd_up avg)%nat.
Proof.
  intros H. unfold odd_up. destruct (Nat.odd avg) eqn:E.
  - split; [exact E|]. destruct (Nat.eq_dec avg 2) as [->|]; [discriminate E|lia].
  - split; [|lia]. rewrite Nat.odd_succ, <- Nat.negb_odd, E. reflexivity.
Qed.

Lemma mean_const a i A : (1 <= A)%nat -> mean_at (fun _ => a) i A = a.
Proof. intros H. unfold mean_at. rewrite rsum_const. field. assert (0 < INR A) by (apply lt_0_INR; lia). lra. Qed.
Lemma mean_affine a b i h : mean_at (fun q => a + b * INR q) i (2 * h + 1) = a + b * INR (i + h).
Proof.
  unfold mean_at. rewrite (rsum_ext _ _ (fun j => (a + b * INR i) + b * INR j)) by (intros; rewrite plus_INR; ring).
  rewrite (rsum_add _ (fun _ => a + b * INR i)), rsum_const, rsum_scal. pose proof (sum_k (2 * h + 1)) as Hs.
  rewrite !plus_INR, mult_INR in *. cbn [INR] in *. pose proof (pos_INR h).
  set (x := rsum (2 * h + 1) INR) in *. clearbody x. replace x with ((2 * INR h + 1) * (2 * INR h + 1 - 1) / 2) by lra.
  replace ((1 + 1) * INR h + 1) with (2 * INR h + 1) by ring. field. lra.
Qed.

Section Recover.
Variables (tx signal pilots : list (list C)) (pidx : list nat) (fl avg ratio : nat) (mb : option nat) (n : nat).
Variables (sel : list nat) (Ls : nat) (ph : nat -> nat -> R).
Let P := length sel.
Let A := odd_up avg.
Hypothesis (Havg : (1 < avg)%nat).
Hypothesis (Hratio : (1 <= ratio)%nat).
Hypothesis (Hsel : every_nth ratio (limited mb pidx) sel).
Hypothesis (Hinc : increasing sel).
Hypothesis (Hbnd : forall k, In k sel -> (k < fl)%nat).
Hypothesis (Hne : tx <> []).
Hypothesis (Hrect : rect tx Ls).
Hypothesis (HLs : (n * fl <= Ls)%nat).
Hypothesis (HA : (A <= n * P)%nat).
Hypothesis (Hmatch : pilots_match tx pilots sel fl ratio n).
Hypothesis (Hrot : rotated_by ph tx signal).
Hypothesis (Hstep : forall k q, (k < length tx)%nat -> (S q < n * P)%nat ->
  Rabs (ph k (pilot_at sel fl (S q)) - ph k (pilot_at sel fl q)) < PI).
Let h := ((A - 1) / 2)%nat.

Lemma recover : exists out tr, pilot_based_cpe_new signal pilots pidx fl avg ratio mb n = Ok (out, tr) /\
  length tr = length tx /\
  rotated_by (fun k t => ph k t - cell 0 tr k t) (map (firstn (n * fl)) tx) out /\
  forall k, (k < length tx)%nat -> exists c, turns c /\ forall t, (t < n * fl)%nat ->
    interpolates (pilot_at sel fl) (fun q => mean_at (fun i => ph k (pilot_at sel fl i)) (q - h) A + c) h (n * P - 1 - h) t (cell 0 tr k t).
Proof.
  destruct Hrot as [Hrl Hrr]. destruct Hmatch as [Hm1 Hm2].
  assert (Hback : forall k row', nth_error signal k = Some row' -> exists row, nth_error tx k = Some row /\ length row' = length row /\
    forall t s, nth_error row t = Some s -> nth_error row' t = Some (s * Cexpi (ph k t))%C).
  { intros k row' Hk. destruct (nth_error_lt_Some tx k) as [row Hrow]; [rewrite <- Hrl; eapply nth_error_Some_lt; exact Hk|].
    destruct (Hrr k row Hrow) as (r' & R1 & R2 & R3). rewrite Hk in R1. injection R1 as <-. exists row. auto. }
  destruct (cpe_ok signal pilots pidx fl avg ratio mb n sel (fun k q => ph k (pilot_at sel fl q)) Ls) as (out & tr & E1 & E2 & E3 & E4); try assumption.
  - intros E. apply Hne. apply length_zero_iff_nil. rewrite <- Hrl, E. reflexivity.
  - apply Forall_forall. intros row' Hin. apply In_nth_error in Hin as [k Hk]. destruct (Hback k row' Hk) as (row & R1 & -> & _).
    unfold rect in Hrect. rewrite Forall_forall in Hrect. apply Hrect. eapply nth_error_In; exact R1.
  - congruence.
  - intros k prow Hk. destruct (nth_error_lt_Some tx k) as [row Hrow]; [rewrite <- Hm1; eapply nth_error_Some_lt; exact Hk|].
    exact (proj1 (Hm2 k row prow Hrow Hk)).
  - intros k row' prow q Hk Hp Hq. destruct (Hback k row' Hk) as (row & R1 & _ & R3).
    destruct (proj2 (Hm2 k row prow R1 Hp) q Hq) as (a & rho & A1 & A2 & A3 & A4).
    exists a, rho. split; [exact A1|]. split; [exact A2|]. split; [exact A3|]. rewrite (R3 _ _ A4). f_equal. cring.
  - intros k q Hk Hq. apply Hstep; [rewrite <- Hrl; exact Hk|exact Hq].
  - exists out, tr. split; [exact E1|]. split; [congruence|]. split.
    + destruct E3 as [O1 O2]. split; [rewrite O1, !map_length; exact Hrl|].
      intros k r0 Hr0. rewrite nth_error_map in Hr0. destruct (nth_error tx k) as [row|] eqn:Er; [|discriminate].
      cbn [option_map] in Hr0. injection Hr0 as <-. destruct (Hrr k row Er) as (row' & R1 & R2 & R3).
      destruct (O2 k (firstn (n * fl) row')) as (r2 & S1 & S2 & S3); [rewrite nth_error_map, R1; reflexivity|].
      exists r2. split; [exact S1|]. split; [rewrite S2, !firstn_length, R2; reflexivity|].
      intros t s Hs. pose proof (nth_error_Some_lt _ _ _ Hs) as Ht. rewrite firstn_length in Ht.
      rewrite nth_error_firstn_lt in Hs by lia. pose proof (R3 t s Hs) as Hs'.
      rewrite (S3 t (s * Cexpi (ph k t))%C) by (rewrite nth_error_firstn_lt by lia; exact Hs').
      f_equal. replace (s * Cexpi (ph k t) * Cexpi (- cell 0 tr k t))%C with (s * (Cexpi (ph k t) * Cexpi (- cell 0 tr k t)))%C by ring.
      rewrite <- Cexpi_add. reflexivity.
    + intros k Hk. destruct (E4 k ltac:(rewrite Hrl; exact Hk)) as (c & C1 & C2). exists c. split; [exact C1|]. exact C2.
Qed.

Lemma rotated_exact (r : nat -> nat -> R) inp out : rotated_by r inp out ->
  (forall k row t, nth_error inp k = Some row -> (t < length row)%nat -> turns (r k t)) -> out = inp.
Proof.
  intros [Hl H] Ht. apply nth_error_ext_lt; [exact Hl|]. intros k Hk. rewrite Hl in Hk.
  destruct (nth_error_lt_Some inp k Hk) as [row Hrow]. destruct (H k row Hrow) as (r' & R1 & R2 & R3). rewrite R1, Hrow. f_equal.
  apply nth_error_ext_lt; [exact R2|]. intros t Htl. rewrite R2 in Htl. destruct (nth_error_lt_Some row t Htl) as [s Hs].
  rewrite (R3 t s Hs), Hs. f_equal. rewrite (Cexpi_turns (r k t) 0), Cexpi_0; [cring|]. rewrite Rminus_0_r. eapply Ht; eassumption.
Qed.

Lemma sizes : (3 <= A)%nat /\ A = (2 * h + 1)%nat /\ (h <= n * P - 1 - h)%nat /\ sel <> [].
Proof.
  destruct (odd_up_bounds avg Havg) as [Ho H3]. fold A in Ho, H3. pose proof (odd_half A Ho) as Hh. fold h in Hh.
  split; [exact H3|]. split; [exact Hh|]. split; [lia|]. intros E. unfold P in HA. rewrite E in HA. cbn [length] in HA. lia.
Qed.

Lemma recover_const (theta : nat -> R) : (forall k t, ph k t = theta k) ->
  exists tr, pilot_based_cpe_new signal pilots pidx fl avg ratio mb n = Ok (map (firstn (n * fl)) tx, tr).
Proof.
  intros Hth. destruct sizes as (S1 & S2 & S3 & S4). destruct recover as (out & tr & E1 & E2 & E3 & E4). exists tr. rewrite E1.
  do 2 f_equal. apply (rotated_exact _ _ _ E3). intros k row t Hk Ht. rewrite nth_error_map in Hk.
  destruct (nth_error tx k) as [row0|] eqn:Er; [|discriminate]. cbn [option_map] in Hk. injection Hk as <-.
  rewrite firstn_length in Ht. destruct (E4 k (nth_error_Some_lt _ _ _ Er)) as (c & C1 & C2).
  rewrite (interpolates_const (pilot_at sel fl) _ h (n * P - 1 - h) t (cell 0 tr k t) (theta k + c) S3) with (3 := C2 t ltac:(lia)).
  - rewrite Hth. replace (theta k - (theta k + c)) with (- c) by ring. apply turns_opp. exact C1.
  - intros q _. apply pilot_at_inc; assumption.
  - intros q _. f_equal. rewrite (mean_at_ext _ (fun _ => theta k)) by (intros; apply Hth). apply mean_const. lia.
Qed.

Lemma recover_line (a b : nat -> R) p0 d : (forall k t, ph k t = a k + b k * INR t) ->
  (forall q, (q < n * P)%nat -> pilot_at sel fl q = (p0 + d * q)%nat) ->
  exists out tr, pilot_based_cpe_new signal pilots pidx fl avg ratio mb n = Ok (out, tr) /\ length out = length tx /\
    forall k row, nth_error tx k = Some row -> exists row', nth_error out k = Some row' /\ length row' = (n * fl)%nat /\
      forall t, (pilot_at sel fl h <= t <= pilot_at sel fl (n * P - 1 - h))%nat -> (t < n * fl)%nat ->
        nth_error row' t = nth_error row t.
Proof.
  intros Hth Hpos. destruct sizes as (S1 & S2 & S3 & S4). destruct recover as (out & tr & E1 & E2 & E3 & E4). exists out, tr.
  split; [exact E1|]. destruct E3 as [O1 O2]. rewrite map_length in O1. split; [exact O1|].
  intros k row Hrow. destruct (O2 k (firstn (n * fl) row)) as (r' & R1 & R2 & R3); [rewrite nth_error_map, Hrow; reflexivity|].
  assert (Hl : length row = Ls) by (unfold rect in Hrect; rewrite Forall_forall in Hrect; apply Hrect; eapply nth_error_In; exact Hrow).
  exists r'. split; [exact R1|]. split; [rewrite R2, firstn_length; lia|]. intros t Ht Htl.
  destruct (nth_error_lt_Some row t ltac:(lia)) as [s Hs].
  rewrite (R3 t s) by (rewrite nth_error_firstn_lt by exact Htl; exact Hs). rewrite Hs. f_equal.
  destruct (E4 k (nth_error_Some_lt _ _ _ Hrow)) as (c & C1 & C2).
  rewrite (interpolates_affine (pilot_at sel fl) _ h (n * P - 1 - h) t (cell 0 tr k t) (a k + c) (b k) S3) with (3 := C2 t Htl) (4 := Ht).
  - rewrite Hth. rewrite (Cexpi_turns _ 0), Cexpi_0; [cring|]. rewrite Rminus_0_r.
    replace (a k + b k * INR t - (a k + c + b k * INR t)) with (- c) by ring. apply turns_opp. exact C1.
  - intros q _. apply pilot_at_inc; assumption.
  - intros q Hq. rewrite (mean_at_ext _ (fun i => (a k + b k * INR p0) + (b k * INR d) * INR i)).
    + rewrite S2, mean_affine. rewrite Hpos by lia. replace (q - h + h)%nat with q by lia. rewrite plus_INR, mult_INR. ring.
    + intros j Hj. rewrite Hth, Hpos by lia. rewrite (plus_INR p0), mult_INR. ring.
Qed.
End Recover.
