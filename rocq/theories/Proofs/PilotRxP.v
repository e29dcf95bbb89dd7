From Coq Require Import List ZArith Arith Bool Reals Lia Lra ZifyBool ZifyNat.
From Verif Require Import Common.Py Common.ListX Common.Cplx Common.SumX Model.Sync Model.Pilots Model.Equaliser Model.PilotRx
  Spec.Seq Spec.Equal Spec.PilotSpec Proofs.SyncQ Proofs.EqualP Proofs.EqualQ Proofs.EqualR Proofs.EqualS Proofs.EqualT Proofs.EqualU Proofs.EqualV Proofs.PilotP.
Import ListNotations.
Open Scope list_scope.

(** ** slices *)
Lemma pyslice_seg {A} (l : list A) lo hi : lo <= hi <= length l -> pyslice (Z.of_nat lo) (Z.of_nat hi) l = firstn (hi - lo) (skipn lo l).
Proof. intros H. unfold pyslice. rewrite !ListX.clipz_pos by lia. rewrite Nat2Z.id. f_equal. lia. Qed.
Lemma shape_row_len {A} (X : list (list A)) p n : 0 < p -> shape X p n -> row_len X = n.
Proof. intros Hp [L R]. apply rect_row_len; [destruct X; cbn in L; [lia|discriminate]|exact R]. Qed.
Lemma wslice_shape {A} (rows : list (list A)) p L lo hi : shape rows p L -> lo <= hi <= L ->
  shape (wslice rows (Z.of_nat lo) (Z.of_nat hi)) p (hi - lo).
Proof.
  intros [H R] Hl. split; [unfold wslice; rewrite map_length; exact H|]. apply Forall_forall. intros r Hr.
  apply in_map_iff in Hr as (x & <- & Hx). assert (length x = L) by (eapply Forall_forall in R; eauto).
  rewrite pyslice_seg by lia. rewrite firstn_length, skipn_length. lia.
Qed.
Lemma nth_firstn' {A} (l : list A) n i d : i < n -> nth i (firstn n l) d = nth i l d.
Proof. revert n i; induction l as [|a l IH]; intros [|n] [|i] H; try lia; cbn; auto. apply IH. lia. Qed.
Lemma nth_skipn' {A} (l : list A) n i d : nth i (skipn n l) d = nth (n + i) l d.
Proof. revert l; induction n as [|n IH]; intros l; [reflexivity|]. destruct l; [destruct i; reflexivity|]. apply IH. Qed.
Lemma wslice_cell {A} (d : A) (rows : list (list A)) p L lo hi k i : shape rows p L -> lo <= hi <= L -> k < p -> i < hi - lo ->
  cell d (wslice rows (Z.of_nat lo) (Z.of_nat hi)) k i = cell d rows k (lo + i).
Proof.
  intros [H R] Hl Hk Hi. unfold cell, wslice. assert (Hx : length (nth k rows []) = L).
  { eapply Forall_forall in R; [exact R|]. apply nth_In. lia. }
  rewrite (nth_indep _ [] (pyslice (Z.of_nat lo) (Z.of_nat hi) [])) by (rewrite map_length; lia).
  rewrite (map_nth (pyslice (Z.of_nat lo) (Z.of_nat hi))), pyslice_seg by lia. rewrite nth_firstn', nth_skipn' by lia. reflexivity.
Qed.
Lemma wslice_length {A} (rows : list (list A)) lo hi : length (wslice rows lo hi) = length rows.
Proof. apply map_length. Qed.
Lemma fir_slice (rows w : list (list C)) p L lo hi n s : shape rows p L -> lo <= hi <= L -> s + n <= hi - lo ->
  fir (wslice rows (Z.of_nat lo) (Z.of_nat hi)) w n s = fir rows w n (lo + s).
Proof.
  intros HR Hl Hs. pose proof HR as [Lr _]. unfold fir. rewrite wslice_length.
  apply csum_ext. intros k Hk. apply csum_ext. intros i Hi. rewrite (wslice_cell C0 rows p L) by (auto; lia).
  rewrite Nat.add_assoc. reflexivity.
Qed.
Lemma fir_real_slice (rows w : list (list R)) p L lo hi n s : shape rows p L -> lo <= hi <= L -> s + n <= hi - lo ->
  fir_real (wslice rows (Z.of_nat lo) (Z.of_nat hi)) w n s = fir_real rows w n (lo + s).
Proof.
  intros HR Hl Hs. pose proof HR as [Lr _]. unfold fir_real. rewrite wslice_length.
  apply rsum_ext. intros k Hk. apply rsum_ext. intros i Hi. rewrite (wslice_cell 0%R rows p L) by (auto; lia).
  rewrite Nat.add_assoc. reflexivity.
Qed.
Lemma pyslice_map {A B} (f : A -> B) lo hi l : pyslice lo hi (map f l) = map f (pyslice lo hi l).
Proof. unfold pyslice. rewrite map_length, skipn_map, firstn_map. reflexivity. Qed.
Lemma convert_wslice rows lo hi : convert_sig_to_real (wslice rows lo hi) = wslice (convert_sig_to_real rows) lo hi.
Proof.
  unfold convert_sig_to_real, wslice. rewrite map_app, !map_map.
  f_equal; apply map_ext; intros r; symmetry; apply pyslice_map.
Qed.
Lemma convert_shape rows p L : shape rows p L -> shape (convert_sig_to_real rows) (p + p) L.
Proof.
  intros [H R]. unfold convert_sig_to_real. split; [rewrite app_length, !map_length; lia|].
  apply Forall_app. split; apply Forall_forall; intros r Hr; apply in_map_iff in Hr as (x & <- & Hx);
    rewrite map_length; eapply Forall_forall in R; eauto.
Qed.

(** ** one filter output, for both kinds of taps *)
Definition tap_out (rows : list (list C)) (wxy : taps) (nt m s : nat) : C :=
  match wxy with
  | TapsC w => fir rows (nth m w []) nt s
  | TapsR w => (fir_real (convert_sig_to_real rows) (nth m w []) nt s,
                fir_real (convert_sig_to_real rows) (nth (m + length rows) w []) nt s)
  end.
Definition taps_ok (wxy : taps) (p nt : nat) : Prop :=
  match wxy with TapsC w => shape3 w p p nt | TapsR w => shape3 w (p + p) (p + p) nt end.
Lemma tap_out_slice rows wxy p L lo hi nt m s : shape rows p L -> lo <= hi <= L -> s + nt <= hi - lo ->
  tap_out (wslice rows (Z.of_nat lo) (Z.of_nat hi)) wxy nt m s = tap_out rows wxy nt m (lo + s).
Proof.
  intros HR Hl Hs. destruct wxy as [w|w]; unfold tap_out.
  - eapply fir_slice; eauto.
  - rewrite convert_wslice, wslice_length. rewrite !(fir_real_slice _ _ (p + p) L) by (auto using convert_shape). reflexivity.
Qed.
Lemma caf_all rows wxy p l os nt : 0 < os -> nt <= l -> shape rows p l -> taps_ok wxy p nt ->
  exists out, core_apply_filter (ArrC rows) l os wxy nt None = Ok out /\ shape out p ((l - nt + 1) / os) /\
    forall m i, m < p -> i < (l - nt + 1) / os -> cell C0 out m i = tap_out rows wxy nt m (i * os).
Proof.
  intros Ho Hn HR Hw. destruct wxy as [w|w]; unfold taps_ok in Hw.
  - destruct (filter_complex rows p l os w p nt None Ho Hn HR Hw I) as (out & E & S & V).
    exists out. cbn [sel_modes] in *. rewrite seq_length in S. split; [exact E|]. split; [exact S|].
    intros m i Hm Hi. apply (V m m i); [|exact Hi]. rewrite ListX.nth_error_seq by lia. reflexivity.
  - destruct (filter_real (ArrC rows) (convert_sig_to_real rows) (p + p) l os w (p + p) nt None p Ho Hn (convert_shape _ _ _ HR) Hw) as (out & E & S & V).
    + right. exists rows. auto.
    + exact I.
    + cbn. now rewrite seq_length.
    + exists out. cbn [sel_modes] in *. split; [exact E|]. split; [exact S|].
      intros m i Hm Hi. unfold tap_out. rewrite (Nat.add_comm m). rewrite (proj1 HR). apply (V m m (p + m) i); [| |exact Hi];
        rewrite ListX.nth_error_seq by lia; reflexivity.
Qed.
Definition group (p k m : nat) : list nat := map (fun j => m + j * p) (seq 0 k).
Lemma caf_group rows wxy p l os nt m : 0 < os -> nt <= l -> shape rows p l -> taps_ok wxy p nt -> m < p ->
  exists r, core_apply_filter (ArrC rows) l os wxy nt
      (Some (group p (match wxy with TapsC _ => 1 | TapsR _ => 2 end) m)) = Ok [r] /\ length r = (l - nt + 1) / os /\
    forall i, i < (l - nt + 1) / os -> nth i r C0 = tap_out rows wxy nt m (i * os).
Proof.
  intros Ho Hn HR Hw Hm.
  assert (S1 : forall (out : list (list C)) n, shape out 1 n -> exists r, out = [r] /\ length r = n).
  { intros out n [L F]. destruct out as [|r [|]]; try discriminate. exists r. split; [reflexivity|]. now inversion F. }
  destruct wxy as [w|w]; unfold taps_ok in Hw.
  - destruct (filter_complex rows p l os w p nt (Some [m]) Ho Hn HR Hw) as (out & E & S & V); [repeat constructor; exact Hm|].
    destruct (S1 _ _ S) as (r & -> & Lr). exists r. unfold group. cbn [seq map]. rewrite Nat.mul_0_l, Nat.add_0_r.
    split; [exact E|]. split; [exact Lr|]. intros i Hi. apply (V 0 m i eq_refl Hi).
  - destruct (filter_real (ArrC rows) (convert_sig_to_real rows) (p + p) l os w (p + p) nt (Some [m; m + p]) 1 Ho Hn (convert_shape _ _ _ HR) Hw) as (out & E & S & V).
    + right. exists rows. auto.
    + constructor; [lia|]. constructor; [lia|constructor].
    + reflexivity.
    + destruct (S1 _ _ S) as (r & -> & Lr). exists r. unfold group. cbn [seq map]. rewrite Nat.mul_0_l, Nat.add_0_r, Nat.mul_1_l.
      split; [exact E|]. split; [exact Lr|]. intros i Hi. unfold tap_out. rewrite (proj1 HR). apply (V 0 m (m + p) i eq_refl eq_refl Hi).
Qed.

(** ** frames *)
Lemma several_false a l : several (a :: l) = false -> forall m x, nth_error (a :: l) m = Some x -> x = a.
Proof.
  cbn. intros H m x Hx. destruct m as [|m]; cbn in Hx; [congruence|]. apply nth_error_In in Hx.
  assert (H' : forall b, In b l -> negb (a =? b)%Z = false).
  { intros b Hb. destruct (negb (a =? b)%Z) eqn:E; [|reflexivity]. rewrite <- H. symmetry. apply existsb_exists. eauto. }
  specialize (H' x Hx). lia.
Qed.
Lemma filter_frames_ok rows p L os fl sh wxy nt (f nf : nat) : 0 < os -> 0 < p -> shape rows p L -> taps_ok wxy p nt -> 0 < nt ->
  0 < nf -> length sh = p ->
  Forall (fun s => 0 <= s /\ s + Z.of_nat ((f + nf) * (os * fl)) + Z.of_nat nt - 1 <= Z.of_nat L)%Z sh -> 0 < fl ->
  exists out, filter_frames rows os fl sh wxy nt (Z.of_nat f) (Z.of_nat nf) = Ok out /\ shape out p (nf * fl) /\
    forall m i, m < p -> i < nf * fl -> cell C0 out m i = tap_out rows wxy nt m (Z.to_nat (nth m sh 0%Z) + f * (os * fl) + i * os).
Proof.
  intros Ho Hp HR Hw Hnt Hnf Hsh HF Hfl. unfold filter_frames.
  set (F := os * fl). assert (HF0 : 0 < F) by (unfold F; nia).
  assert (Hlen : (nf * F + nt - 1 - nt + 1) / os = nf * fl).
  { replace (nf * F + nt - 1 - nt + 1) with (nf * fl * os) by (unfold F; nia). apply Nat.div_mul. lia. }
  assert (Hpiece : forall s, In s sh -> exists lo, lo = Z.to_nat s + f * F /\ lo + nf * F + nt - 1 <= L /\
     wslice rows (s + Z.of_nat f * Z.of_nat F) (s + Z.of_nat f * Z.of_nat F + Z.of_nat nf * Z.of_nat F + Z.of_nat nt - 1) =
     wslice rows (Z.of_nat lo) (Z.of_nat (lo + (nf * F + nt - 1)))).
  { intros s Hs. eapply Forall_forall in HF; [|exact Hs]. destruct HF as [Hs0 Hs1]. fold F in Hs1.
    exists (Z.to_nat s + f * F). split; [reflexivity|]. split; [nia|]. f_equal; nia. }
  assert (Hone : forall m i lo, lo + nf * F + nt - 1 <= L -> i < nf * fl ->
     tap_out (wslice rows (Z.of_nat lo) (Z.of_nat (lo + (nf * F + nt - 1)))) wxy nt m (i * os) = tap_out rows wxy nt m (lo + i * os)).
  { intros m i lo Hlo Hi. apply (tap_out_slice rows wxy p L); [exact HR|lia|]. unfold F in *. nia. }
  assert (HPs : forall lo, lo + nf * F + nt - 1 <= L ->
     shape (wslice rows (Z.of_nat lo) (Z.of_nat (lo + (nf * F + nt - 1)))) p (nf * F + nt - 1)).
  { intros lo Hlo. replace (nf * F + nt - 1) with (lo + (nf * F + nt - 1) - lo) at 2 by lia. apply (wslice_shape rows p L); [exact HR|lia]. }
  destruct (several sh) eqn:Es.
  - assert (Hnw : match wxy with TapsC w => length w | TapsR w => length w end = p * (match wxy with TapsC _ => 1 | TapsR _ => 2 end)).
    { destruct wxy; destruct Hw as [Hw _]; rewrite Hw; lia. }
    unfold mode_groups. rewrite Hnw, (proj1 HR).
    replace (p =? 0) with false by lia. set (k := match wxy with TapsC _ => 1 | TapsR _ => 2 end) in *.
    rewrite Nat.mul_comm, Nat.mod_mul, Nat.div_mul by lia. cbn [orb negb Nat.eqb bind].
    set (G := fun m => map (fun j => m + j * p) (seq 0 k)).
    assert (Hex : forall m, m < p -> exists r,
       (let! m0 := getn (G m) 0 in let! s := getn sh m0 in
        core_apply_filter (ArrC (wslice rows (s + Z.of_nat f * Z.of_nat F) (s + Z.of_nat f * Z.of_nat F + Z.of_nat nf * Z.of_nat F + Z.of_nat nt - 1)))
          (row_len (wslice rows (s + Z.of_nat f * Z.of_nat F) (s + Z.of_nat f * Z.of_nat F + Z.of_nat nf * Z.of_nat F + Z.of_nat nt - 1))) os wxy nt (Some (G m))) = Ok [r] /\
        length r = nf * fl /\ forall i, i < nf * fl -> nth i r C0 = tap_out rows wxy nt m (Z.to_nat (nth m sh 0%Z) + f * F + i * os)).
    { intros m Hm. assert (HG0 : getn (G m) 0 = Ok m).
      { unfold G. assert (0 < k) by (unfold k; destruct wxy; lia). destruct k; [lia|]. cbn. now rewrite Nat.add_0_r. }
      rewrite HG0. cbn [bind]. unfold getn at 1. rewrite (nth_error_nth' sh 0%Z) by lia. cbn [bind].
      destruct (Hpiece (nth m sh 0%Z)) as (lo & -> & Hlo & Epc); [apply nth_In; lia|]. rewrite Epc.
      set (lo := Z.to_nat (nth m sh 0%Z) + f * F) in *.
      rewrite (shape_row_len _ p (nf * F + nt - 1)) by (auto).
      destruct (caf_group _ wxy p (nf * F + nt - 1) os nt m Ho ltac:(nia) (HPs lo Hlo) Hw Hm) as (r & E & Lr & V).
      rewrite Hlen in Lr, V. exists r. split; [exact E|]. split; [exact Lr|]. intros i Hi. rewrite V by exact Hi. apply Hone; assumption. }
    set (body := fun g : list nat => _) in |- *.
    assert (Hbody : forall m, m < p -> exists r, body (G m) = Ok [r] /\ length r = nf * fl /\
        forall i, i < nf * fl -> nth i r C0 = tap_out rows wxy nt m (Z.to_nat (nth m sh 0%Z) + f * F + i * os)) by (intros m Hm; apply (Hex m Hm)).
    clearbody body. clear Hex.
    assert (Hseq : forall q a, a + q <= p -> exists rs, mapM body (map G (seq a q)) = Ok (map (fun r => [r]) rs) /\ length rs = q /\
       forall j, j < q -> length (nth j rs []) = nf * fl /\ forall i, i < nf * fl -> nth i (nth j rs []) C0 =
         tap_out rows wxy nt (a + j) (Z.to_nat (nth (a + j) sh 0%Z) + f * F + i * os)).
    { induction q as [|q IH]; intros a Ha; [exists []; split; [reflexivity|]; split; [reflexivity|]; intros; lia|].
      destruct (Hbody a ltac:(lia)) as (r & E & Lr & V). destruct (IH (S a) ltac:(lia)) as (rs & Es' & Ls & Vs).
      exists (r :: rs). cbn [seq map mapM]. rewrite E. cbn [bind]. rewrite Es'. cbn [bind map]. split; [reflexivity|].
      split; [cbn; lia|]. intros [|j] Hj; cbn [nth].
      - rewrite Nat.add_0_r. auto.
      - replace (a + S j) with (S a + j) by lia. apply Vs. lia. }
    destruct (Hseq p 0 ltac:(lia)) as (rs & Er & Lr & V).
    rewrite Er. cbn [bind]. exists rs. split.
    { unfold squeeze. clear. induction rs as [|r rs IH]; [reflexivity|]. cbn [map mapM bind]. rewrite IH. reflexivity. }
    split.
    { split; [exact Lr|]. apply Forall_forall. intros r Hr. apply (In_nth _ _ []) in Hr as (j & Hj & <-). apply V. lia. }
    intros m i Hm Hi. unfold cell. rewrite (proj2 (V m ltac:(lia)) i Hi). reflexivity.
  - destruct sh as [|s0 sh]; [cbn in Hsh; lia|]. cbn [getn nth_error bind].
    destruct (Hpiece s0 ltac:(left; reflexivity)) as (lo & -> & Hlo & Epc).
    unfold getn. cbn [nth_error bind]. rewrite Epc. set (lo := Z.to_nat s0 + f * F) in *.
    rewrite (shape_row_len _ p (nf * F + nt - 1)) by (auto).
    destruct (caf_all _ wxy p (nf * F + nt - 1) os nt Ho ltac:(nia) (HPs lo Hlo) Hw) as (out & E & S & V).
    rewrite Hlen in S, V. exists out. split; [exact E|]. split; [exact S|]. intros m i Hm Hi. rewrite V by assumption.
    rewrite Hone by assumption. unfold lo. f_equal. f_equal. f_equal. f_equal.
    symmetry. apply (several_false s0 sh Es m). rewrite (nth_error_nth' _ 0%Z) by (cbn in *; lia). reflexivity.
Qed.

(** ** the whole of apply_to_pilotsignal *)
Lemma fold_min_le l : forall a x, (In x (a :: l) -> fold_left Z.min l a <= x)%Z.
Proof.
  induction l as [|b l IH]; intros a x; cbn.
  - intros [H|[]]. lia.
  - intros H. assert (M : (fold_left Z.min l (Z.min a b) <= Z.min a b)%Z) by (apply IH; left; reflexivity).
    destruct H as [H|[H|H]]; [lia|lia|]. apply IH. right. exact H.
Qed.
Lemma fold_min_in l : forall a, In (fold_left Z.min l a) (a :: l).
Proof.
  induction l as [|b l IH]; intros a; cbn; [left; reflexivity|].
  destruct (IH (Z.min a b)) as [H|H]; [|right; right; exact H].
  rewrite <- H. destruct (Z.min_spec a b) as [[_ ->]|[_ ->]]; auto.
Qed.
Lemma fold_max_le l : forall a x, (In x (a :: l) -> x <= fold_left Z.max l a)%Z.
Proof.
  induction l as [|b l IH]; intros a x; cbn.
  - intros [H|[]]. lia.
  - intros H. assert (M : (Z.max a b <= fold_left Z.max l (Z.max a b))%Z) by (apply IH; left; reflexivity).
    destruct H as [H|[H|H]]; [lia|lia|]. apply IH. right. exact H.
Qed.
Lemma fold_max_in l : forall a, In (fold_left Z.max l a) (a :: l).
Proof.
  induction l as [|b l IH]; intros a; cbn; [left; reflexivity|].
  destruct (IH (Z.max a b)) as [H|H]; [|right; right; exact H].
  rewrite <- H. destruct (Z.max_spec a b) as [[_ ->]|[_ ->]]; auto.
Qed.
Lemma zmax_spec l : l <> [] -> exists m, zmax l = Ok m /\ In m l /\ forall x, In x l -> (x <= m)%Z.
Proof.
  destruct l as [|a l]; [congruence|]. intros _. cbn. eexists. split; [reflexivity|]. split; [apply fold_max_in|].
  intros x Hx. apply fold_max_le. exact Hx.
Qed.
Lemma zmin_spec l : l <> [] -> exists m, zmin l = Ok m /\ In m l /\ forall x, In x l -> (m <= x)%Z.
Proof.
  destruct l as [|a l]; [congruence|]. intros _. cbn. eexists. split; [reflexivity|]. split; [apply fold_min_in|].
  intros x Hx. apply fold_min_le. exact Hx.
Qed.
Lemma tap_shifts_eq shifts nt sy : tap_shifts shifts nt sy = map (fun s => s - extra nt sy)%Z shifts.
Proof.
  unfold tap_shifts, extra. destruct (nt =? sy) eqn:E; [|reflexivity].
  apply Nat.eqb_eq in E. subst. rewrite Z.sub_diag. cbn. symmetry. rewrite <- (map_id shifts) at 2. apply map_ext. intros. lia.
Qed.
Lemma frame_shifts_eq shifts nt sy os fl : shifts <> [] -> frame_shifts shifts nt sy os fl =
  Ok (map (fun m => frame_start shifts nt sy os fl m) (seq 0 (length shifts))).
Proof.
  intros Hn. unfold frame_shifts. rewrite tap_shifts_eq.
  destruct (zmin_spec (map (fun s => s - extra nt sy)%Z shifts)) as (mn & E & Hin & Hmin).
  { destruct shifts; [congruence|discriminate]. }
  rewrite E. cbn [bind]. apply (f_equal Ok). unfold frame_start.
  assert (Hb : existsb (fun s => s <? extra nt sy)%Z shifts = (mn <? 0)%Z).
  { apply eq_true_iff_eq. rewrite existsb_exists. split.
    - intros (s & Hs & Hlt). specialize (Hmin (s - extra nt sy)%Z ltac:(apply in_map_iff; eauto)). lia.
    - intros Hlt. apply in_map_iff in Hin as (s & Hs & Hsi). exists s. split; [exact Hsi|]. lia. }
  rewrite Hb. clear.
  destruct (mn <? 0)%Z.
  - rewrite map_map. apply nth_error_ext_lt; [rewrite !map_length, seq_length; reflexivity|].
    intros i Hi. rewrite map_length in Hi. rewrite !nth_error_map, (nth_error_nth' shifts 0%Z), ListX.nth_error_seq by lia.
    cbn [option_map]. rewrite Nat.add_0_l. apply (f_equal Some). lia.
  - apply nth_error_ext_lt; [rewrite !map_length, seq_length; reflexivity|].
    intros i Hi. rewrite map_length in Hi. rewrite !nth_error_map, (nth_error_nth' shifts 0%Z), ListX.nth_error_seq by lia.
    cbn [option_map]. rewrite Nat.add_0_l. apply (f_equal Some). lia.
Qed.
Lemma contiguous_nth f : contiguous f = true -> forall j, j < length f -> nth j f 0%Z = (hd 0 f + Z.of_nat j)%Z.
Proof.
  induction f as [|a f IH]; intros H j Hj; [cbn in Hj; lia|].
  destruct f as [|b f]; [cbn in Hj; destruct j; [cbn; lia|lia]|].
  cbn [contiguous] in H. apply andb_true_iff in H as [H1 H2]. destruct j as [|j]; [cbn; lia|].
  change (nth (S j) (a :: b :: f) 0%Z) with (nth j (b :: f) 0%Z). rewrite (IH H2 j) by (cbn in *; lia). cbn [hd]. lia.
Qed.
Lemma last_nth {A} (l : list A) d : l <> [] -> last l d = nth (length l - 1) l d.
Proof.
  induction l as [|a l IH]; [congruence|]. intros _. destruct l as [|b l]; [reflexivity|].
  change (last (b :: l) d = nth (length (a :: b :: l) - 1) (a :: b :: l) d). rewrite IH by discriminate.
  cbn [length]. rewrite !Nat.sub_succ, !Nat.sub_0_r. reflexivity.
Qed.
Lemma hstack_ok {A} (d : A) p n (l : list (list (list A))) : l <> [] -> Forall (fun x => shape x p n) l ->
  exists out, hstack l = Ok out /\ shape out p (length l * n) /\
    forall m j k, m < p -> j < length l -> k < n -> cell d out m (j * n + k) = cell d (nth j l []) m k.
Proof.
  induction l as [|a l IH]; [congruence|]. intros _ HF. inversion HF as [|? ? Ha HF']; subst.
  destruct l as [|b l].
  - exists a. split; [reflexivity|]. cbn [length]. rewrite Nat.mul_1_l. split; [exact Ha|].
    intros m j k Hm Hj Hk. assert (j = 0) by lia. subst. reflexivity.
  - destruct (IH ltac:(discriminate) HF') as (o & E & So & V). change (hstack (a :: b :: l)) with
      (let! x := hstack (b :: l) in if length a =? length x then Ok (map (fun p => fst p ++ snd p) (combine a x)) else Err ValueError).
    rewrite E. cbn [bind]. rewrite (proj1 Ha), (proj1 So), Nat.eqb_refl. eexists. split; [reflexivity|].
    assert (Hra : forall m, m < p -> length (nth m a []) = n).
    { intros m Hm. destruct Ha as [La Ra]. eapply Forall_forall in Ra; [exact Ra|]. apply nth_In. lia. }
    assert (Hro : forall m, m < p -> length (nth m o []) = length (b :: l) * n).
    { intros m Hm. destruct So as [La Ra]. eapply Forall_forall in Ra; [exact Ra|]. apply nth_In. lia. }
    assert (Hrow : forall m, m < p -> nth m (map (fun q => fst q ++ snd q) (combine a o)) [] = nth m a [] ++ nth m o []).
    { intros m Hm. rewrite (nth_indep _ [] ((fun q => fst q ++ snd q) ([], []))) by (rewrite map_length, combine_length, (proj1 Ha), (proj1 So); lia).
      rewrite (map_nth (fun q => fst q ++ snd q)), combine_nth by (rewrite (proj1 Ha), (proj1 So); reflexivity). reflexivity. }
    split.
    + split; [rewrite map_length, combine_length, (proj1 Ha), (proj1 So); lia|]. apply Forall_forall. intros r Hr.
      apply (In_nth _ _ []) in Hr as (m & Hm & <-). rewrite map_length, combine_length, (proj1 Ha), (proj1 So) in Hm.
      rewrite Hrow, app_length, Hra, Hro by lia. cbn [length]. lia.
    + intros m j k Hm Hj Hk. unfold cell. rewrite Hrow by exact Hm. destruct j as [|j].
      * cbn [nth]. rewrite app_nth1 by (rewrite Hra; lia). reflexivity.
      * rewrite app_nth2 by (rewrite Hra; nia). rewrite Hra by exact Hm. replace (S j * n + k - n) with (j * n + k) by lia.
        apply (V m j k Hm); [cbn [length] in *; lia|exact Hk].
Qed.

Lemma apply_pilot_ok rows p L os fl shifts sy wxy nt frames : 0 < os -> 0 < fl -> 0 < p -> 0 < nt ->
  shape rows p L -> taps_ok wxy p nt -> length shifts = p -> frames <> [] ->
  (forall m f, m < p -> In f frames -> frame_in L nt os fl (frame_start shifts nt sy os fl m) f) ->
  exists out, apply_to_pilotsignal rows os fl shifts sy wxy nt frames = Ok out /\
    shape out p (length frames * fl) /\
    forall m j k, m < p -> j < length frames -> k < fl ->
      cell C0 out m (j * fl + k) = tap_out rows wxy nt m
        (Z.to_nat (frame_start shifts nt sy os fl m + nth j frames 0%Z * Z.of_nat (os * fl)) + k * os).
Proof.
  intros Ho Hfl Hp Hnt HR Hw Hsh Hfr Hin. unfold apply_to_pilotsignal.
  assert (Hsn : shifts <> []) by (destruct shifts; [cbn in Hsh; lia|discriminate]).
  rewrite frame_shifts_eq by exact Hsn. cbn [bind]. rewrite Hsh.
  set (st := frame_start shifts nt sy os fl) in *. set (sh := map (fun m => st m) (seq 0 p)).
  assert (Lsh : length sh = p) by (unfold sh; rewrite map_length, seq_length; reflexivity).
  assert (Nsh : forall m, m < p -> nth m sh 0%Z = st m).
  { intros m Hm. unfold sh. rewrite (nth_error_nth _ m 0%Z (x := st m)); [reflexivity|].
    rewrite nth_error_map, ListX.nth_error_seq by exact Hm. reflexivity. }
  assert (Ish : forall s, In s sh -> exists m, m < p /\ s = st m).
  { intros s Hs. unfold sh in Hs. apply in_map_iff in Hs as (m & <- & Hm). apply in_seq in Hm. exists m. split; [lia|reflexivity]. }
  destruct (zmax_spec sh) as (smax & Es & Hsmax & Hsle); [destruct sh; [cbn in Lsh; lia|discriminate]|].
  destruct (zmax_spec frames Hfr) as (fmax & Ef & Hfmax & Hfle). rewrite Es, Ef. cbn [bind].
  destruct (Ish smax Hsmax) as (mm & Hmm & ->).
  rewrite (shape_row_len rows p L Hp HR).
  assert (Hlt : (st mm + Z.of_nat (os * fl) * (fmax + 1) <? Z.of_nat L - (Z.of_nat nt - 1))%Z = true).
  { specialize (Hin mm fmax Hmm Hfmax) as (_ & _ & H). lia. }
  rewrite Hlt. cbn [negb].
  assert (Hfpos : forall f, In f frames -> (0 <= f)%Z) by (intros f Hf; apply (Hin 0 f Hp Hf)).
  set (G := if contiguous frames then _ else _).
  assert (HG : exists out, G = Ok out /\ shape out p (length frames * fl) /\
    forall m j k, m < p -> j < length frames -> k < fl ->
      cell C0 out m (j * fl + k) = tap_out rows wxy nt m (Z.to_nat (st m + nth j frames 0%Z * Z.of_nat (os * fl)) + k * os)).
  { unfold G. clear G. assert (Hnf : 0 < length frames) by (destruct frames; [congruence|cbn; lia]). destruct (contiguous frames) eqn:Ec.
    - pose proof (contiguous_nth frames Ec) as Hc. set (f0 := hd 0%Z frames) in *.
      assert (Hf0 : In f0 frames) by (unfold f0; destruct frames; [congruence|left; reflexivity]).
      rewrite last_nth, Hc by (auto; lia).
      replace (f0 + Z.of_nat (length frames - 1) - f0 + 1)%Z with (Z.of_nat (length frames)) by lia.
      pose proof (Hfpos f0 Hf0) as Hf00. rewrite <- (Z2Nat.id f0) by exact Hf00.
      destruct (filter_frames_ok rows p L os fl sh wxy nt (Z.to_nat f0) (length frames)) as (out & E & S & V); try assumption.
      + apply Forall_forall. intros s Hs. destruct (Ish s Hs) as (m & Hm & ->).
        assert (HI : In (f0 + Z.of_nat (length frames - 1))%Z frames).
        { rewrite <- (Hc (length frames - 1)) by lia. apply nth_In. lia. }
        specialize (Hin m _ Hm HI) as (_ & H0 & H). split; [exact H0|]. nia.
      + exists out. split; [exact E|]. split; [exact S|]. intros m j k Hm Hj Hk.
        rewrite V by (auto; nia). rewrite Nsh, Hc by assumption. apply (f_equal (tap_out rows wxy nt m)).
        specialize (Hin m f0 Hm Hf0) as (_ & H0 & _). nia.
    - assert (Hall : exists l, mapM (fun f => filter_frames rows os fl sh wxy nt f 1) frames = Ok l /\ length l = length frames /\
         forall j, j < length frames -> shape (nth j l []) p fl /\ forall m k, m < p -> k < fl -> cell C0 (nth j l []) m k =
           tap_out rows wxy nt m (Z.to_nat (st m + nth j frames 0%Z * Z.of_nat (os * fl)) + k * os)).
      { assert (Hone : forall f, In f frames -> exists o, filter_frames rows os fl sh wxy nt f 1 = Ok o /\ shape o p fl /\
           forall m k, m < p -> k < fl -> cell C0 o m k = tap_out rows wxy nt m (Z.to_nat (st m + f * Z.of_nat (os * fl)) + k * os)).
        { intros f Hf. pose proof (Hfpos f Hf) as Hf0. rewrite <- (Z2Nat.id f) by exact Hf0.
          destruct (filter_frames_ok rows p L os fl sh wxy nt (Z.to_nat f) 1) as (out & E & S & V); try assumption; try lia.
          - apply Forall_forall. intros s Hs. destruct (Ish s Hs) as (m & Hm & ->).
            specialize (Hin m f Hm Hf) as (_ & H0 & H). split; [exact H0|]. nia.
          - exists out. rewrite Nat.mul_1_l in *. split; [exact E|]. split; [exact S|]. intros m k Hm Hk.
            rewrite V by assumption. rewrite Nsh by assumption. apply (f_equal (tap_out rows wxy nt m)).
            specialize (Hin m f Hm Hf) as (_ & H0 & _). nia. }
        clear - Hone. induction frames as [|f fs IH]; [exists []; split; [reflexivity|]; split; [reflexivity|]; intros j Hj; cbn in Hj; lia|].
        destruct (Hone f ltac:(left; reflexivity)) as (o & E & S & V).
        destruct IH as (l & El & Ll & Vl); [intros g Hg; apply Hone; right; exact Hg|].
        exists (o :: l). cbn [mapM]. rewrite E. cbn [bind]. rewrite El. cbn [bind]. split; [reflexivity|]. split; [cbn; lia|].
        intros [|j] Hj; cbn [nth]; [auto|]. apply Vl. cbn in Hj. lia. }
      destruct Hall as (l & El & Ll & Vl). rewrite El. cbn [bind].
      destruct (hstack_ok C0 p fl l) as (out & E & S & V).
      + destruct l; [cbn in Ll; lia|discriminate].
      + apply Forall_forall. intros x Hx. apply (In_nth _ _ []) in Hx as (j & Hj & <-). apply Vl. lia.
      + rewrite Ll in *. exists out. split; [exact E|]. split; [exact S|]. intros m j k Hm Hj Hk. rewrite V by assumption. apply Vl; assumption. }
  destruct HG as (out & EG & S & V). rewrite EG. cbn [bind]. replace (fl =? 0) with false by lia.
  rewrite (shape_row_len out p _ Hp S), Nat.div_mul by lia.
  replace (length frames =? 0) with false by (destruct frames; [congruence|reflexivity]).
  exists out. split; [reflexivity|]. split; [exact S|exact V].
Qed.
Lemma apply_pilot_short rows p L os fl shifts sy wxy nt frames : 0 < p -> shape rows p L -> length shifts = p ->
  (exists m f, m < p /\ In f frames /\
     (Z.of_nat L <= frame_start shifts nt sy os fl m + (f + 1) * Z.of_nat (os * fl) + Z.of_nat nt - 1)%Z) ->
  apply_to_pilotsignal rows os fl shifts sy wxy nt frames = Err AssertionError.
Proof.
  intros Hp HR Hsh (m & f & Hm & Hf & Hlt). unfold apply_to_pilotsignal.
  assert (Hsn : shifts <> []) by (destruct shifts; [cbn in Hsh; lia|discriminate]).
  rewrite frame_shifts_eq by exact Hsn. cbn [bind]. rewrite Hsh.
  set (st := frame_start shifts nt sy os fl) in *. set (sh := map (fun m => st m) (seq 0 p)).
  assert (Hin : In (st m) sh) by (apply (in_map st); apply in_seq; lia).
  destruct (zmax_spec sh) as (smax & Es & Hsmax & Hsle); [destruct sh; [destruct Hin|discriminate]|].
  destruct (zmax_spec frames) as (fmax & Ef & Hfmax & Hfle); [destruct frames; [destruct Hf|discriminate]|].
  rewrite Es, Ef. cbn [bind]. rewrite (shape_row_len rows p L Hp HR). specialize (Hsle _ Hin). specialize (Hfle _ Hf).
  assert (E : (smax + Z.of_nat (os * fl) * (fmax + 1) <? Z.of_nat L - (Z.of_nat nt - 1))%Z = false) by nia.
  rewrite E. reflexivity.
Qed.
