(** Filter application (C53) and the equalised signal (C78). *)
From Coq Require Import String List ZArith Arith Bool Reals Lia Lra.
From Verif Require Import Common.Py Common.ListX Common.Cplx Common.SumX.
From Verif Require Import Spec.Seq Spec.Win Spec.Equal Model.Windows Model.Equaliser.
From Verif Require Import Proofs.WindowsP Proofs.EqualP Proofs.EqualQ.
Import ListNotations.

Lemma fold_Cadd l a : fold_left Cadd l a = (a + Csum l)%C.
Proof.
  revert a. induction l as [|x l IH]; intros a; cbn [fold_left].
  - change (Csum []) with C0. ring.
  - rewrite IH, Csum_cons. ring.
Qed.
Lemma fold_Rplus l a : fold_left Rplus l a = (a + Rsum l)%R.
Proof.
  revert a. induction l as [|x l IH]; intros a; cbn [fold_left].
  - change (Rsum []) with 0%R. ring.
  - rewrite IH, Rsum_cons. ring.
Qed.
Lemma Csum_concat l : Csum (concat l) = Csum (map Csum l).
Proof. induction l as [|x l IH]; [reflexivity|]. cbn [concat map]. rewrite Csum_app, Csum_cons, IH. reflexivity. Qed.
Lemma Rsum_concat l : Rsum (concat l) = Rsum (map Rsum l).
Proof. induction l as [|x l IH]; [reflexivity|]. cbn [concat map]. rewrite Rsum_app, Rsum_cons, IH. reflexivity. Qed.
Lemma fsum_C X w p n : fsum C0 Cadd Cmul X w p n =
  csum p (fun k => csum n (fun i => (cell C0 X k i * cell C0 w k i)%C)).
Proof. unfold fsum. rewrite fold_Cadd, Csum_concat, map_map. unfold csum. ring. Qed.
Lemma fsum_R X w p n : fsum 0%R Rplus Rmult X w p n =
  rsum p (fun k => rsum n (fun i => (cell 0 X k i * cell 0 w k i)%R)).
Proof. unfold fsum. rewrite fold_Rplus, Rsum_concat, map_map. unfold rsum. ring. Qed.
Lemma fsum_fir E w p l n s : shape E p l -> fsum C0 Cadd Cmul (window E s n) w p n = fir E w n s.
Proof.
  intros [HE _]. rewrite fsum_C. unfold fir. rewrite HE. apply csum_ext. intros k _. apply csum_ext.
  intros i Hi. now rewrite window_cell.
Qed.
Lemma fsum_fir_real E w p l n s : shape E p l -> fsum 0%R Rplus Rmult (window E s n) w p n = fir_real E w n s.
Proof.
  intros [HE _]. rewrite fsum_R. unfold fir_real. rewrite HE. apply rsum_ext. intros k _. apply rsum_ext.
  intros i Hi. now rewrite window_cell.
Qed.

Lemma table_cell {K} (d : K) (f : nat -> nat -> K) modes n j m i : nth_error modes j = Some m -> i < n ->
  cell d (map (fun m0 => map (fun i0 => f m0 i0) (seq 0 n)) modes) j i = f m i.
Proof.
  intros Hm Hi. unfold cell.
  rewrite (nth_error_nth _ j [] (x := map (fun i0 => f m i0) (seq 0 n))).
  - rewrite (nth_error_nth _ i d (x := f m i)); [reflexivity|]. rewrite nth_error_map_seq by assumption. reflexivity.
  - rewrite nth_error_map, Hm. reflexivity.
Qed.
Lemma table_shape {K} (f : nat -> nat -> K) modes n :
  shape (map (fun m0 => map (fun i0 => f m0 i0) (seq 0 n)) modes) (length modes) n.
Proof.
  split; [now rewrite map_length|]. unfold rect. rewrite Forall_forall. intros r Hr.
  apply in_map_iff in Hr as [m [<- _]]. now rewrite map_length, seq_length.
Qed.

Lemma sel_modes_lt modes nw : match modes with None => True | Some m => Forall (fun x => x < nw) m end ->
  Forall (fun x => x < nw) (sel_modes modes nw).
Proof.
  destruct modes as [m|]; [auto|]. intros _. rewrite Forall_forall. intros x Hx. apply in_seq in Hx. lia.
Qed.

Lemma filter_complex E p l os wx nm n modes : 0 < os -> n <= l -> shape E p l -> shape3 wx nm p n ->
  match modes with None => True | Some m => Forall (fun x => x < nm) m end ->
  exists out, core_apply_filter (ArrC E) l os (TapsC wx) n modes = Ok out /\
    shape out (length (sel_modes modes nm)) ((l - n + 1) / os) /\
    forall j m i, nth_error (sel_modes modes nm) j = Some m -> i < (l - n + 1) / os ->
      i * os + n <= l /\ cell C0 out j i = fir E (nth m wx []) n (i * os).
Proof.
  intros Ho Hn HE Hw Hm. unfold core_apply_filter. rewrite (proj1 Hw).
  change (match modes with Some m => m | None => seq 0 nm end) with (sel_modes modes nm).
  rewrite (apply_to_signal_ok C0 Cadd Cmul E p l os wx nm n) by (auto using sel_modes_lt).
  eexists. split; [reflexivity|]. split; [apply table_shape|]. intros j m i Hj Hi. split; [now apply in_window|].
  rewrite (table_cell C0 (fun m0 i0 => fsum C0 Cadd Cmul (window E (i0 * os) n) (nth m0 wx []) p n) _ _ _ m)
    by assumption. now apply (fsum_fir E _ p l).
Qed.

Lemma real_shape E p l : shape E p l -> shape (convert_sig_to_real E) (2 * p) l.
Proof.
  intros [Hl Hr]. unfold convert_sig_to_real. split; [rewrite app_length, !map_length; lia|].
  unfold rect in *. rewrite Forall_forall in *. intros r H. apply in_app_or in H.
  destruct H as [H|H]; apply in_map_iff in H as [x [<- Hx]]; rewrite map_length; now apply Hr.
Qed.
Lemma cmplx_join (t : list (list R)) q n : shape t (q + q) n ->
  exists out, convert_sig_to_cmplx t (q + q) = Ok out /\ shape out q n /\
    forall j i, j < q -> i < n -> cell C0 out j i = (cell 0%R t j i, cell 0%R t (q + j) i).
Proof.
  intros [Hl Hr]. unfold convert_sig_to_cmplx.
  replace ((q + q) / 2) with q by (replace (q + q) with (q * 2) by lia; now rewrite Nat.div_mul).
  unfold bcast_rows. rewrite firstn_length, skipn_length, Hl.
  replace (Nat.min q (q + q)) with q by lia. replace (q + q - q) with q by lia. rewrite Nat.eqb_refl.
  eexists. split; [reflexivity|].
  assert (Ha : length (combine (firstn q t) (skipn q t)) = q).
  { rewrite combine_length, firstn_length, skipn_length, Hl. lia. }
  assert (Hrow : forall j, j < q + q -> length (nth j t []) = n).
  { intros j Hj. apply rect_in; [assumption|lia]. }
  assert (Hnth : forall j, j < q -> nth_error (combine (firstn q t) (skipn q t)) j = Some (nth j t [], nth (q + j) t [])).
  { intros j Hj. rewrite (nth_error_nth' _ ([], [])) by lia. f_equal. rewrite combine_nth.
    - rewrite nth_firstn_lt by assumption. now rewrite nth_skipn_add.
    - rewrite firstn_length, skipn_length, Hl. lia. }
  split.
  - split; [rewrite map_length; exact Ha|]. unfold rect. rewrite Forall_forall. intros r Hin.
    apply In_nth_error in Hin as [j Hj]. pose proof (nth_error_Some_lt _ _ _ Hj) as Hb.
    rewrite map_length, Ha in Hb. rewrite nth_error_map, Hnth in Hj by assumption. cbn [option_map fst snd] in Hj.
    injection Hj as <-. rewrite map_length, combine_length, !Hrow by lia. lia.
  - intros j i Hj Hi. unfold cell. rewrite (nth_error_nth _ j [] (x := map (fun q0 : R * R => (fst q0, snd q0))
       (combine (nth j t []) (nth (q + j) t [])))).
    + rewrite (nth_error_nth _ i C0 (x := (nth i (nth j t []) 0%R, nth i (nth (q + j) t []) 0%R))); [reflexivity|].
      rewrite nth_error_map, (nth_error_nth' _ (0%R, 0%R)) by (rewrite combine_length, !Hrow by lia; lia).
      cbn [option_map]. rewrite combine_nth by (rewrite !Hrow by lia; reflexivity). reflexivity.
    + rewrite nth_error_map, Hnth by assumption. reflexivity.
Qed.
Lemma filter_real e E p l os wx nm n modes q : 0 < os -> n <= l -> shape E p l -> shape3 wx nm p n ->
  (e = ArrR E \/ exists Ec, e = ArrC Ec /\ E = convert_sig_to_real Ec) ->
  match modes with None => True | Some m => Forall (fun x => x < nm) m end ->
  length (sel_modes modes nm) = q + q ->
  exists out, core_apply_filter e l os (TapsR wx) n modes = Ok out /\
    shape out q ((l - n + 1) / os) /\
    forall j m m' i, nth_error (sel_modes modes nm) j = Some m -> nth_error (sel_modes modes nm) (q + j) = Some m' ->
      i < (l - n + 1) / os -> i * os + n <= l /\
      cell C0 out j i = (fir_real E (nth m wx []) n (i * os), fir_real E (nth m' wx []) n (i * os)).
Proof.
  intros Ho Hn HE Hw He Hm Hq.
  assert (Heq : core_apply_filter e l os (TapsR wx) n modes =
     (let! t := apply_filter_to_signal 0%R Rplus Rmult E l os wx n (sel_modes modes nm) in
      convert_sig_to_cmplx t (length (sel_modes modes nm)))).
  { destruct He as [->|[Ec [-> ->]]]; unfold core_apply_filter; rewrite (proj1 Hw); reflexivity. }
  rewrite Heq. rewrite (apply_to_signal_ok 0%R Rplus Rmult E p l os wx nm n) by (auto using sel_modes_lt).
  cbn [bind]. rewrite Hq.
  set (t := map _ _). assert (Ht : shape t (q + q) ((l - n + 1) / os)).
  { rewrite <- Hq. apply table_shape. }
  destruct (cmplx_join t q _ Ht) as [out [-> [Hs Hc]]]. exists out. split; [reflexivity|].
  split; [assumption|]. intros j m m' i Hj Hj' Hi. split; [now apply in_window|].
  assert (Hjq : j < q).
  { pose proof (nth_error_Some_lt _ _ _ Hj') as Hb. rewrite Hq in Hb. lia. }
  rewrite Hc by assumption. subst t.
  rewrite !(table_cell 0%R (fun m0 i0 => fsum 0%R Rplus Rmult (window E (i0 * os) n) (nth m0 wx []) p n) _ _ _ m) by assumption.
  rewrite !(table_cell 0%R (fun m0 i0 => fsum 0%R Rplus Rmult (window E (i0 * os) n) (nth m0 wx []) p n) _ _ _ m') by assumption.
  now rewrite !(fsum_fir_real E _ p l).
Qed.

(** linearity and unit taps *)
Lemma fir_lin_in E1 E2 E3 w p l n s a b : shape E1 p l -> shape E2 p l -> shape E3 p l -> s + n <= l ->
  (forall k i, k < p -> i < l -> cell C0 E3 k i = (a * cell C0 E1 k i + b * cell C0 E2 k i)%C) ->
  fir E3 w n s = (a * fir E1 w n s + b * fir E2 w n s)%C.
Proof.
  intros [H1 _] [H2 _] [H3 _] Hs Hc. unfold fir. rewrite H1, H2, H3, <- !csum_scal, <- csum_add.
  apply csum_ext. intros k Hk. rewrite <- !csum_scal, <- csum_add. apply csum_ext. intros i Hi.
  rewrite Hc by lia. ring.
Qed.
Lemma fir_lin_w E w1 w2 w3 p l n s a b : shape E p l ->
  (forall k i, k < p -> i < n -> cell C0 w3 k i = (a * cell C0 w1 k i + b * cell C0 w2 k i)%C) ->
  fir E w3 n s = (a * fir E w1 n s + b * fir E w2 n s)%C.
Proof.
  intros [H1 _] Hc. unfold fir. rewrite H1, <- !csum_scal, <- csum_add.
  apply csum_ext. intros k Hk. rewrite <- !csum_scal, <- csum_add. apply csum_ext. intros i Hi.
  rewrite Hc by lia. ring.
Qed.
Lemma fir_delta E w p l n s k0 d : shape E p l -> k0 < p -> d < n ->
  (forall k i, k < p -> i < n -> cell C0 w k i = if (k =? k0) && (i =? d) then C1 else C0) ->
  fir E w n s = cell C0 E k0 (s + d).
Proof.
  intros [H1 _] Hk Hd Hc. unfold fir. rewrite H1, (csum_single p _ k0 Hk).
  - rewrite (csum_single n _ d Hd).
    + rewrite Hc, !Nat.eqb_refl by assumption. cbn [andb]. ring.
    + intros i Hi Hne. rewrite Hc, (proj2 (Nat.eqb_neq i d) Hne), andb_false_r by assumption. ring.
  - intros k Hkp Hne. apply csum_zero. intros i Hi.
    rewrite Hc, (proj2 (Nat.eqb_neq k k0) Hne) by assumption. cbn [andb]. ring.
Qed.

(** ** the numpy implementation *)
Lemma frames_window (row : list C) n os nf out : frames_of (nth_error row) nf n os out ->
  out = map (fun i => firstn n (skipn (i * os) row)) (seq 0 nf).
Proof.
  intros [Hl Hf]. apply nth_error_ext_lt; [now rewrite map_length, seq_length|].
  intros i Hi. rewrite Hl in Hi. destruct (Hf i Hi) as [fr [Hfr [Hfl Hc]]].
  rewrite Hfr, nth_error_map_seq by assumption. f_equal. cbn [Nat.add].
  assert (Hbound : forall j, j < n -> i * os + j < length row).
  { intros j Hj. destruct (Hc j Hj) as [He Hn]. rewrite He in Hn. now apply nth_error_Some. }
  assert (Hlen : length (firstn n (skipn (i * os) row)) = n).
  { rewrite firstn_length, skipn_length. destruct n as [|n]; [reflexivity|].
    pose proof (Hbound n ltac:(lia)). lia. }
  apply nth_error_ext_lt; [lia|]. intros j Hj. rewrite Hfl in Hj.
  rewrite (proj1 (Hc j Hj)), nth_error_firstn_lt, nth_error_skipn' by lia. reflexivity.
Qed.

Lemma cdot_app a1 a2 b1 b2 : length a1 = length b1 -> cdot (a1 ++ a2) (b1 ++ b2) = (cdot a1 b1 + cdot a2 b2)%C.
Proof.
  unfold cdot. revert b1. induction a1 as [|x a1 IH]; intros [|y b1] H; cbn in H; try lia.
  - cbn [app combine map]. change (Csum []) with C0. ring.
  - cbn [app combine map fst snd]. rewrite !Csum_cons, IH by lia. ring.
Qed.
Lemma csum_head n f : csum (S n) f = (f 0%nat + csum n (fun i => f (S i)))%C.
Proof. unfold csum. cbn [seq map]. rewrite Csum_cons, <- seq_shift, map_map. reflexivity. Qed.
Lemma cdot_csum a b n : length a = n -> length b = n ->
  cdot a b = csum n (fun i => (nth i a C0 * nth i b C0)%C).
Proof.
  revert a b. induction n as [|n IH]; intros a b Ha Hb.
  - destruct a; [reflexivity|discriminate].
  - destruct a as [|x a]; [discriminate|]. destruct b as [|y b]; [discriminate|].
    cbn in Ha, Hb. unfold cdot. cbn [combine map fst snd]. rewrite Csum_cons. fold (cdot a b).
    rewrite (IH a b) by lia. rewrite csum_head. reflexivity.
Qed.
Lemma shape_cons {K} (r : list K) X p n : shape (r :: X) (S p) n -> length r = n /\ shape X p n.
Proof.
  intros [Hl Hr]. unfold rect in Hr. apply Forall_cons_iff in Hr. cbn in Hl. destruct Hr. repeat split; [assumption|lia|assumption].
Qed.
Lemma cdot_concat X w p n : shape X p n -> shape w p n ->
  length (concat X) = length (concat w) /\
  cdot (concat X) (concat w) = csum p (fun k => csum n (fun i => (cell C0 X k i * cell C0 w k i)%C)).
Proof.
  revert X w. induction p as [|p IH]; intros X w HX Hw.
  - destruct HX as [HX _], Hw as [Hw _]. destruct X; [|discriminate]. destruct w; [|discriminate]. split; reflexivity.
  - destruct X as [|r X]; [destruct HX; discriminate|]. destruct w as [|v w]; [destruct Hw; discriminate|].
    apply shape_cons in HX as [Hr HX]. apply shape_cons in Hw as [Hv Hw]. destruct (IH X w HX Hw) as [A B].
    cbn [concat]. split; [rewrite !app_length; congruence|].
    rewrite cdot_app by congruence. rewrite B, (cdot_csum r v n) by assumption.
    rewrite (csum_head p). reflexivity.
Qed.

Lemma fold_hstack (nf : nat) (g : list C -> nat -> list C) rows acc :
  fold_left (fun acc0 s => let! a := acc0 in
      if length a =? length s then Ok (map (fun p => fst p ++ snd p) (combine a s)) else Err ValueError)
    (map (fun row => map (g row) (seq 0 nf)) rows) (Ok (map acc (seq 0 nf)))
  = Ok (map (fun i => acc i ++ concat (map (fun row => g row i) rows)) (seq 0 nf)).
Proof.
  revert acc. induction rows as [|r rows IH]; intros acc; cbn [map fold_left concat].
  - f_equal. apply map_ext. intros i. now rewrite app_nil_r.
  - cbn [bind]. rewrite !map_length, Nat.eqb_refl.
    replace (map (fun p => fst p ++ snd p) (combine (map acc (seq 0 nf)) (map (g r) (seq 0 nf))))
      with (map (fun i => acc i ++ g r i) (seq 0 nf)).
    + rewrite IH. f_equal. apply map_ext. intros i. now rewrite app_assoc.
    + generalize (seq 0 nf). induction l as [|x l IHl]; [reflexivity|]. cbn [map combine fst snd]. now rewrite IHl.
Qed.

Lemma filter_py E p l os wx n : 0 < os -> os <= n -> n <= l -> 0 < p -> shape E p l -> shape3 wx p p n ->
  exists out, apply_filter_py E os wx n = Ok out /\ shape out p (1 + (l - n) / os) /\
    forall m i, m < p -> i < 1 + (l - n) / os -> i * os + n <= l /\ cell C0 out m i = fir E (nth m wx []) n (i * os).
Proof.
  intros Ho Hon Hn Hp HE Hw. unfold apply_filter_py. destruct HE as [HEl HEr]. pose proof (conj HEl HEr : shape E p l) as HE.
  rewrite (proj1 Hw). set (nf := 1 + (l - n) / os).
  assert (Hseg : mapM (fun m => let! row := getn E m in segment_axis row (Z.of_nat n) (Z.of_nat n - Z.of_nat os) Cut C0) (seq 0 p)
     = Ok (map (fun row => map (fun i => firstn n (skipn (i * os) row)) (seq 0 nf)) E)).
  { replace (map (fun row => map (fun i => firstn n (skipn (i * os) row)) (seq 0 nf)) E)
      with (map (fun m => map (fun i => firstn n (skipn (i * os) (nth m E []))) (seq 0 nf)) (seq 0 p)).
    - apply mapM_ok. intros m Hm. apply in_seq in Hm. rewrite (getn_nth E m []) by lia. cbn [bind].
      pose proof (rect_in E l m HEr ltac:(lia)) as Hrl.
      replace (Z.of_nat n - Z.of_nat os)%Z with (Z.of_nat (n - os)) by lia.
      destruct (seg_cut (nth m E []) n (n - os) C0 ltac:(lia) ltac:(lia)) as [out [Hout Hfr]].
      rewrite Hout. f_equal. rewrite Hrl in Hfr. replace (n - (n - os)) with os in Hfr by lia.
      apply frames_window. exact Hfr.
    - rewrite <- HEl. clear. change (fun m => map (fun i => firstn n (skipn (i * os) (nth m E []))) (seq 0 nf))
        with (fun m => (fun row => map (fun i => firstn n (skipn (i * os) row)) (seq 0 nf)) (nth m E [])).
      rewrite <- map_map with (f := fun m => nth m E []). f_equal.
      induction E as [|r E IH]; [reflexivity|]. cbn [length seq map nth]. f_equal.
      rewrite <- seq_shift, map_map. exact IH. }
  rewrite Hseg. cbn [bind]. destruct E as [|r E']; [cbn in HEl; lia|]. cbn [map getn nth_error bind tl].
  rewrite (fold_hstack nf (fun row i => firstn n (skipn (i * os) row)) E'). cbn [bind].
  rewrite (mapM_ok _ (fun m => map (fun i => fir (r :: E') (nth m wx []) n (i * os)) (seq 0 nf))).
  - eexists. split; [reflexivity|]. split.
    + pose proof (table_shape (fun m i => fir (r :: E') (nth m wx []) n (i * os)) (seq 0 p) nf) as Ht.
      now rewrite seq_length in Ht.
    + intros m i Hm Hi. split.
      * pose proof (Nat.mul_div_le (l - n) os ltac:(lia)) as Hd. subst nf. nia.
      * apply (table_cell C0 (fun m i => fir (r :: E') (nth m wx []) n (i * os))); [|assumption].
        now rewrite nth_error_seq.
  - intros m Hm. apply in_seq in Hm. rewrite (getn_nth wx m []) by (rewrite (proj1 Hw); lia). cbn [bind].
    pose proof (shape3_nth wx p p n m Hw ltac:(lia)) as Hwm.
    assert (Hall : forall i, In i (seq 0 nf) ->
       shape (window (r :: E') (i * os) n) p n).
    { intros i Hi. apply in_seq in Hi. apply (window_shape (r :: E') p l); [assumption|].
      pose proof (Nat.mul_div_le (l - n) os ltac:(lia)) as Hd. subst nf. nia. }
    clear Hseg. revert Hall. generalize (seq 0 nf). intros s Hall. induction s as [|i s IH]; [reflexivity|].
    cbn [map mapM]. change (firstn n (skipn (i * os) r) ++ concat (map (fun row => firstn n (skipn (i * os) row)) E'))
      with (concat (window (r :: E') (i * os) n)).
    destruct (cdot_concat _ _ p n (Hall i (or_introl eq_refl)) Hwm) as [Hlen Hdot].
    rewrite Hlen, Nat.eqb_refl. cbn [bind]. rewrite IH by (intros k Hk; apply Hall; now right). cbn [bind].
    rewrite Hdot. f_equal. f_equal. rewrite <- fsum_C. apply (fsum_fir (r :: E') _ p l). exact HE.
Qed.
