From Coq Require Import String List ZArith Arith Bool Reals Lia Lra ZifyBool ZifyNat Permutation.
From Verif Require Import Common.Py Common.ListX Common.Cplx Common.SumX Model.Decision Model.Sync Model.Pilots Model.Equaliser Model.Phase
  Model.PilotRx Spec.Seq Spec.Equal Spec.PilotSpec Proofs.DecisionP Proofs.SyncQ Proofs.PilotRxP Proofs.PilotRxQ Proofs.PilotRxR Proofs.PilotRxS Proofs.PilotRxT.
Import ListNotations.
Open Scope list_scope.

Definition first_min (v : nat -> R) (n i : nat) : Prop :=
  i < n /\ (forall j, j < n -> (v i <= v j)%R) /\ (forall j, j < i -> (v i < v j)%R).
(** ** the search in terms of windows, taps and variances *)
Lemma wslice_window (rx : list (list C)) s n : (0 <= s)%Z -> wslice rx s (s + Z.of_nat n) = map (fun r => window r (Z.to_nat s) n) rx.
Proof. intros H. unfold wslice. apply map_ext. intros r. apply pyslice_window. exact H. Qed.
Lemma search_of train rx ref os ns (res : list (list (list (list C)) * list R)) d : length res = ns - 2 ->
  (forall i, i < ns - 2 -> train (map (fun r => window r ((i + 2) * (seq_len ref * os / 2)) (seq_len ref * os)) rx) = Ok (nth i res d)) ->
  search train rx ref os ns = Ok res.
Proof.
  intros Hl H. unfold search, step, search_window. set (st := seq_len ref * os / 2) in *. set (w := seq_len ref * os) in *. clearbody st w.
  assert (G : forall k a, a + k = ns - 2 -> mapM (fun i => train (wslice rx (Z.of_nat (i * st)) (Z.of_nat (i * st + w)))) (seq (2 + a) k) = Ok (skipn a res)).
  { induction k as [|k IH]; intros a Ha.
    - cbn [seq mapM]. rewrite skipn_all2 by lia. reflexivity.
    - cbn [seq mapM]. rewrite Nat2Z.inj_add, wslice_window by lia. rewrite Nat2Z.id.
      rewrite (Nat.add_comm 2 a). rewrite H by lia. cbn [bind]. replace (S (a + 2)) with (2 + S a) by lia.
      rewrite IH by lia. cbn [bind]. f_equal.
      assert (Ha' : a < length res) by lia. clear - Ha'. revert a Ha'. induction res as [|x l IH]; intros [|a] H; cbn in *; try lia; [reflexivity|]. apply IH. lia. }
  exact (G (ns - 2) 0 ltac:(lia)).
Qed.
Lemma sub_vars_of ns (res : list (list (list (list C)) * list R)) d l p idx : 2 <= ns -> length res = ns - 2 -> l < p ->
  (forall i, i < ns - 2 -> length (snd (nth i res d)) = p) -> 2 <= idx < ns ->
  first_min (fun i => nth l (snd (nth i res d)) 0%R) (ns - 2) (idx - 2) -> (nth l (snd (nth (idx - 2) res d)) 0 < 100)%R ->
  exists vars, sub_vars ns res l = Ok vars /\ argmin vars = Ok idx.
Proof.
  intros Hns Hl Hlp Hs Hi (Hf1 & Hf2 & Hf3) H100. unfold sub_vars.
  set (v := fun i => nth l (snd (nth i res d)) 0%R) in *. change (Rlt (v (idx - 2)) 100%R) in H100.
  assert (E : mapM (fun p0 : list (list (list C)) * list R => getn (snd p0) l) res = Ok (map v (seq 0 (ns - 2)))).
  { rewrite <- Hl. assert (G : forall l0 a, a + length l0 = length res -> skipn a res = l0 -> mapM (fun p0 : list (list (list C)) * list R => getn (snd p0) l) l0 = Ok (map v (seq a (length l0)))).
    { induction l0 as [|x l0 IH]; intros a Ha Hsk; [reflexivity|]. cbn [mapM length seq map].
      assert (Hx : nth_error res a = Some x) by (replace a with (a + 0) by lia; rewrite <- nth_error_skipn', Hsk; reflexivity).
      assert (Hn : nth a res d = x) by (apply nth_error_nth; exact Hx).
      assert (Hg : getn (snd x) l = Ok (nth l (snd x) 0%R)).
      { unfold getn. rewrite (nth_error_nth' _ 0%R) by (rewrite <- Hn, Hs by (cbn in Ha; lia); exact Hlp). reflexivity. }
      rewrite Hg. cbn [bind].
      cbn [length] in Ha. rewrite (IH (S a)) by (try lia; rewrite <- Nat.add_1_r, <- skipn_skipn', Hsk; reflexivity). cbn [bind].
      unfold v at 2. rewrite Hn. reflexivity. }
    exact (G res 0 eq_refl eq_refl). }
  rewrite E. cbn [bind]. eexists. split; [reflexivity|]. rewrite Nat.min_l by lia. cbn [repeat app].
  set (vars := _ :: _ :: _). destruct (argmin_ok vars ltac:(discriminate)) as (j & Hj). rewrite Hj. apply (f_equal Ok).
  destruct (argmin_spec _ _ Hj) as (dj & Hd). apply (is_argmin_unique vars j dj idx (v (idx - 2)) Hd).
  assert (Hget : forall k x, nth_error vars k = Some x -> (k < 2 /\ x = 100%R) \/ (2 <= k < ns /\ x = v (k - 2))).
  { intros [|[|k]] x Hx.
    - left. injection Hx as <-. split; [lia|reflexivity].
    - left. injection Hx as <-. split; [lia|reflexivity].
    - right. cbn in Hx. rewrite nth_error_map in Hx. destruct (nth_error (seq 0 (ns - 2)) k) as [y|] eqn:Ey; [|discriminate].
      assert (k < ns - 2) by (assert (HH : nth_error (seq 0 (ns - 2)) k <> None) by congruence; apply nth_error_Some in HH; rewrite seq_length in HH; exact HH).
      rewrite nth_error_seq in Ey by lia. injection Ey as <-. cbn in Hx. injection Hx as <-. split; [lia|]. f_equal. lia. }
  split; [|split].
  - destruct idx as [|[|k]]; try lia. unfold vars. cbn [nth_error]. rewrite nth_error_map, nth_error_seq by lia. cbn [option_map]. do 2 f_equal. lia.
  - intros k x Hx. destruct (Hget k x Hx) as [[_ ->]|[Hk ->]]; [lra|]. apply Hf2. lia.
  - intros k x Hk Hx. destruct (Hget k x Hx) as [[_ ->]|[Hk' ->]]; [lra|]. apply Hf3. lia.
Qed.
Lemma search_symbols_of find_fo rx ref os nt L (res : list (list (list (list C)) * list R)) d l idx fo :
  let p := length rx in let st := seq_len ref * os / 2 in let w := seq_len ref * os in
  rect rx L -> 1 <= os -> nt <= 2 * w -> 2 <= idx -> idx - 2 < length res -> w <= idx * st -> idx * st + w <= L -> l < p ->
  shape3 (fst (nth (idx - 2) res d)) p p nt ->
  let eq := equalised rx (fst (nth (idx - 2) res d)) nt os (idx * st - w) ((2 * w - nt + 1) / os) in
  find_fo eq = Ok fo -> length fo = p ->
  search_symbols find_fo rx ref os nt res l idx = Ok (without_offset (nth l fo 0%R) (nth l eq [])).
Proof.
  intros p st w Hrx Hos Hnt Hi Hil Hst HL Hl Hw eq Hfo Hfl. unfold search_symbols, step, search_window. fold st w.
  set (taps := fst (nth (idx - 2) res d)) in *. clearbody st w. set (s := idx * st - w) in *.
  assert (E1 : window_taps rx nt res idx = Ok taps).
  { unfold window_taps. replace (idx <? 2) with false by lia. unfold getn. rewrite (nth_error_nth' res d) by exact Hil. reflexivity. }
  rewrite E1. cbv zeta. cbn [bind].
  replace (Z.of_nat (idx * st) - Z.of_nat w)%Z with (Z.of_nat s) by lia.
  replace (Z.of_nat (idx * st) + Z.of_nat w)%Z with (Z.of_nat (s + 2 * w)) by lia.
  set (long := wslice rx (Z.of_nat s) (Z.of_nat (s + 2 * w))).
  assert (HL' : shape long p (2 * w)).
  { unfold long. split; [unfold wslice; rewrite map_length; reflexivity|]. apply Forall_forall. intros r Hr. unfold wslice in Hr. apply in_map_iff in Hr as (r0 & <- & Hr0).
    eapply Forall_forall in Hrx; [|exact Hr0]. rewrite Nat2Z.inj_add, pyslice_window by lia. unfold window. rewrite firstn_length, skipn_length, Nat2Z.id. lia. }
  assert (Hp : 0 < p) by lia.
  rewrite (shape_row_len long p (2 * w) Hp HL').
  destruct (caf_all long (TapsC taps) p (2 * w) os nt ltac:(lia) Hnt HL' Hw) as (out & Eo & [Ho1 Ho2] & V). rewrite Eo. cbn [bind].
  assert (Eq : out = eq).
  { unfold eq, equalised. fold p. set (n := (2 * w - nt + 1) / os) in *. apply (nth_ext _ _ [] []); [rewrite map_length, seq_length; exact Ho1|].
    intros m Hm. set (g := fun m => map (fun i => fir rx (nth m taps []) nt (s + i * os)) (seq 0 n)).
    rewrite (nth_indep (map g _) [] (g 0)) by (rewrite map_length, seq_length; lia). rewrite map_nth, seq_nth by lia. cbn [Nat.add]. unfold g.
    assert (Hlm : length (nth m out []) = n) by (eapply Forall_forall in Ho2; [exact Ho2|apply nth_In; exact Hm]).
    apply (nth_ext _ _ C0 C0); [rewrite map_length, seq_length; exact Hlm|]. intros i Hi'. rewrite Hlm in Hi'.
    set (h := fun i => fir rx (nth m taps []) nt (s + i * os)).
    rewrite (nth_indep (map h _) C0 (h 0)) by (rewrite map_length, seq_length; lia). rewrite map_nth, seq_nth by lia. cbn [Nat.add]. unfold h.
    etransitivity; [exact (V m i ltac:(lia) Hi')|]. unfold long.
    rewrite (tap_out_slice rx (TapsC taps) p L s (s + 2 * w) nt m (i * os)); [reflexivity|split; [reflexivity|exact Hrx]|lia|].
    assert (Hb : (i + 1) * os <= 2 * w - nt + 1).
    { assert (os * n <= 2 * w - nt + 1) by (unfold n; apply Nat.mul_div_le; lia). nia. }
    nia. }
  rewrite Eq, Hfo. cbn [bind]. clear V Ho2 Eo.
  assert (He : length eq = p) by (rewrite <- Eq; exact Ho1).
  destruct (foc_total (fun _ _ _ => Err ValueError) (fun _ _ _ _ => Err ValueError) (fun _ _ => Err ValueError) eq fo 1 ltac:(lia)) as (s' & Es). rewrite Es. cbn [bind].
  assert (Hls : length s' = p) by (unfold comp_freq_offset in Es; apply mapM_length in Es; rewrite seq_length in Es; lia).
  unfold comp_freq_offset in Es. destruct (mapM_nth _ _ _ l l Es) as (b & Hb & Eb). { rewrite nth_error_seq by lia. reflexivity. }
  unfold getn in *. rewrite Hb. apply (f_equal Ok).
  rewrite (nth_error_nth' eq []) in Eb by lia. rewrite (nth_error_nth' fo 0%R) in Eb by lia. cbn [bind] in Eb. injection Eb as <-.
  set (row := nth l eq []). set (f := nth l fo 0%R). unfold without_offset. clear.
  assert (G : forall (r : list C) k, map (fun p : nat * C => (snd p * Cexpi (- (2 * PI * INR (fst p) * f / 1)))%C) (combine (seq (S k) (length r)) r) =
     map (fun i => (nth i r C0 * Cexpi (- (2 * PI * INR (k + i + 1) * f)))%C) (seq 0 (length r))).
  { induction r as [|x r IH]; intros k; [reflexivity|]. cbn [length seq combine map fst snd nth]. apply (f_equal2 cons).
    - replace (k + 0 + 1) with (S k) by lia. replace (2 * PI * INR (S k) * f / 1)%R with (2 * PI * INR (S k) * f)%R by field. reflexivity.
    - rewrite IH. rewrite <- seq_shift, map_map. apply map_ext. intros i. cbn [nth]. replace (S k + i + 1) with (k + S i + 1) by lia. reflexivity. }
  rewrite (G row 0). reflexivity.
Qed.

Lemma finds_modes train find_fo rx ref os fl nt P L tr fo pil pos qrt idx :
  rect rx L -> 1 <= os -> P * os <> 1 -> 1 <= P -> nt <= 2 * (P * os) -> (fl + 2 * P) * os <= L -> row_len ref = P ->
  search_finds train find_fo rx ref os fl nt P tr fo pil pos qrt idx ->
  exists sy res, let ns := fl * os / (P * os / 2) + 1 in
    search train rx ref os ns = Ok res /\ forall l, l < length rx -> mode_has find_fo rx ref os nt pil pos qrt idx sy ns res l.
Proof.
  intros Hrx Hos Hp1 HP Hnt HL Href (H1 & H2 & H3 & _). set (w := P * os) in *. set (st := w / 2) in *. set (ns := fl * os / st + 1) in *. set (p := length rx) in *.
  assert (Hst : 1 <= st) by (unfold st; apply Nat.div_le_lower_bound; nia).
  exists (fun l => without_offset (nth l (fo l) 0%R) (nth l (equalised rx (fst (tr (idx l))) nt os (idx l * st - w) ((2 * w - nt + 1) / os)) [])).
  exists (map tr (seq 2 (ns - 2))). set (res := map tr (seq 2 (ns - 2))). set (d := tr 0).
  assert (Hlen : length res = ns - 2) by (unfold res; rewrite map_length, seq_length; reflexivity).
  assert (Hnth : forall i, i < ns - 2 -> nth i res d = tr (2 + i)).
  { intros i Hi. unfold res, d. rewrite map_nth, seq_nth by lia. reflexivity. }
  assert (Hsl : seq_len ref = P) by exact Href.
  split.
  - apply (search_of train rx ref os ns res d Hlen). rewrite Hsl. fold w st. intros i Hi. rewrite Hnth by exact Hi.
    replace (i + 2) with (2 + i) by lia. apply (H1 (2 + i)). lia.
  - intros l Hl. destruct (H2 l Hl) as ((Hi & Hm1 & Hm2) & H100 & Hw). destruct (H3 l Hl) as (Hfo & Hfl & Hrest).
    assert (Hns : 2 <= ns) by lia.
    assert (Ht : nth (idx l - 2) res d = tr (idx l)) by (rewrite Hnth by lia; f_equal; lia).
    split; [|split; [|exact Hrest]].
    + apply (sub_vars_of ns res d l p (idx l)); try assumption.
      * intros i Hi'. rewrite Hnth by exact Hi'. apply (H1 (2 + i)). lia.
      * split; [lia|]. cbv beta. rewrite Ht. split.
        -- intros j Hj. rewrite Hnth by exact Hj. apply Hm1. lia.
        -- intros j Hj. rewrite Hnth by lia. apply Hm2. lia.
      * rewrite Ht. exact H100.
    + pose proof (search_symbols_of find_fo rx ref os nt L res d l (idx l) (fo l)) as S. cbv zeta in S. rewrite Hsl, Ht in S. fold w st in S.
      apply S; try assumption; try lia.
      * assert (idx l * st <= fl * os). { assert (idx l <= fl * os / st) by lia. assert (st * (fl * os / st) <= fl * os) by (apply Nat.mul_div_le; lia). nia. }
        unfold w in *. nia.
      * apply (H1 (idx l)). exact Hi.
Qed.
Lemma finds_sync train find_fo rx ref os fl nt L meth P tr fo pil pos qrt idx :
  rect rx L -> rx <> [] -> 1 <= P -> 1 <= os -> P * os <> 1 -> nt <= 2 * (P * os) -> (fl + 2 * P) * os <= L -> row_len ref = P ->
  length rx <= length ref -> Forall (fun r => length r = P /\ unit_modulus r) ref ->
  match meth with Some m => memb m REAL_VALUED || memb m DATA_AIDED | None => false end = false ->
  search_finds train find_fo rx ref os fl nt P tr fo pil pos qrt idx ->
  frame_sync train find_fo rx ref os fl nt meth =
  Ok (map (found_shift os P pos idx) (seq 0 (length rx)), map pil (seq 0 (length rx)), 120 <=? P).
Proof.
  intros H1 H2 H3 H4 H5 H6 H7 H8 H9 H10 H11 H12.
  destruct (finds_modes train find_fo rx ref os fl nt P L tr fo pil pos qrt idx H1 H4 H5 H3 H6 H7 H8 H12) as (sy & res & Hs & Hm).
  apply (frame_sync_finds train find_fo rx ref os fl nt meth L P pil pos qrt idx sy res); try assumption. apply H12.
Qed.
Lemma finds_arranges train find_fo rx ref os fl nt L P tr fo pil pos qrt idx :
  rect rx L -> rx <> [] -> length rx <= 2 -> 1 <= P -> 1 <= os -> P * os <> 1 -> nt <= 2 * (P * os) -> (fl + 2 * P) * os <= L -> row_len ref = P ->
  length rx <= length ref -> Forall (fun r => length r = P /\ unit_modulus r) ref ->
  search_finds train find_fo rx ref os fl nt P tr fo pil pos qrt idx ->
  exists rows sh, sync2frame train find_fo rx ref os fl nt None = Ok (rows, sh, 120 <=? P) /\
    forall l, l < length rx -> nth_error rows (pil l) = nth_error rx l /\
      exists s, nth_error sh (pil l) = Some s /\
        s = if (found_shift os P pos idx l <? 0)%Z then (found_shift os P pos idx l + Z.of_nat (fl * os))%Z else found_shift os P pos idx l.
Proof.
  intros H1 H2 H2' H3 H4 H5 H6 H7 H8 H9 H10 H12.
  destruct (finds_modes train find_fo rx ref os fl nt P L tr fo pil pos qrt idx H1 H4 H5 H3 H6 H7 H8 H12) as (sy & res & Hs & Hm).
  apply (sync_arranges train find_fo rx ref os fl nt L P pil pos qrt idx sy res); try assumption. apply H12.
Qed.

Lemma eq3 : equalised rx3 id3 1 1 0 4 = [q0; q1; q2].
Proof.
  unfold equalised. change (length rx3) with 3. cbn [seq map]. unfold fir, csum, cell, Csum. change (length rx3) with 3. cbn [seq map fold_right Nat.add Nat.mul nth rx3 id3 app q0 q1 q2].
  assert (E1 : forall x y z : C, Cadd (Cadd (Cmul x C1) C0) (Cadd (Cadd (Cmul y C0) C0) (Cadd (Cadd (Cmul z C0) C0) C0)) = x) by (intros; cring).
  assert (E2 : forall x y z : C, Cadd (Cadd (Cmul x C0) C0) (Cadd (Cadd (Cmul y C1) C0) (Cadd (Cadd (Cmul z C0) C0) C0)) = y) by (intros; cring).
  assert (E3 : forall x y z : C, Cadd (Cadd (Cmul x C0) C0) (Cadd (Cadd (Cmul y C0) C0) (Cadd (Cadd (Cmul z C1) C0) C0)) = z) by (intros; cring).
  rewrite !E1, !E2, !E3. reflexivity.
Qed.
Lemma without0 row : without_offset 0 row = row.
Proof.
  unfold without_offset. assert (E : forall (z : C) k, (z * Cexpi (- (2 * PI * k * 0)))%C = z).
  { intros z k. rewrite Rmult_0_r, Ropp_0. unfold Cexpi. rewrite cos_0, sin_0. cring. }
  apply (nth_ext _ _ C0 C0); [rewrite map_length, seq_length; reflexivity|]. intros i Hi. rewrite map_length, seq_length in Hi.
  set (g := fun i => _). rewrite (nth_indep _ C0 (g 0)) by (rewrite map_length, seq_length; exact Hi). rewrite map_nth, seq_nth by exact Hi. unfold g. rewrite E. reflexivity.
Qed.
Lemma finds3 : search_finds train3 fo3 rx3 ref3 1 2 1 2 (fun _ => (id3, [0; 0; 0]%R)) (fun _ => [0; 0; 0]%R) pil3 (fun _ => 1%Z) (fun _ => 3) (fun _ => 2).
Proof.
  unfold search_finds. change (length rx3) with 3. change (2 * 1 / 2) with 1. change (2 * 1 / 1 + 1) with 3. cbn [fst snd].
  split. { intros i Hi. split; [reflexivity|]. split; [|reflexivity]. split; [reflexivity|]. repeat (apply Forall_cons; [split; [reflexivity|repeat constructor]|]). apply Forall_nil. }
  split. { intros l Hl. assert (E : nth l [0; 0; 0]%R 0%R = 0%R) by (destruct l as [|[|[|]]]; try reflexivity; lia). cbv zeta. rewrite E. split; [|split; [lra|lia]].
           split; [lia|]. split; intros; [lra|lia]. }
  split.
  - intros l Hl. change ((2 * (2 * 1) - 1 + 1) / 1) with 4. change (2 * 1 - 2 * 1) with 0. rewrite eq3. cbv zeta. split; [reflexivity|]. split; [reflexivity|].
    assert (E : nth l [0; 0; 0]%R 0%R = 0%R) by (destruct l as [|[|[|]]]; try reflexivity; lia). rewrite E, without0.
    pose proof (mode3 l Hl) as (_ & _ & M1 & M2 & M3 & M4 & M5 & M6). unfold sy3 in *.
    split; [exact M1|]. split; [exact M2|]. split; [lia|]. split; [exact M4|]. split; [|exact M6].
    destruct l as [|[|[|]]]; [exact M5|exact M5|exact M5|lia].
  - cbn. repeat constructor; cbn; intuition lia.
Qed.
