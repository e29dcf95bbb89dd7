From Coq Require Import List ZArith NArith Bool Lia Reals Lra Psatz Arith ZifyBool ZifyNat ZifyN.
From Verif Require Import Common.Py Common.ListX Common.Cplx Common.SumX Model.Gray Model.Constellation Model.Decision Model.Sync Model.Quality
  Spec.Bits Spec.Geometry Spec.Seq Spec.Metrics Proofs.GrayP Proofs.DecisionP Proofs.MapP Proofs.QamP Proofs.PskP Proofs.C01P Proofs.C02P Proofs.PilotP Proofs.QualityP Proofs.QualityQ.
Import ListNotations.
Local Open Scope R_scope.

Lemma map_rep {A B} (f : A -> B) a n : map f (repeat a n) = repeat (f a) n.
Proof. induction n as [|n IH]; [reflexivity|]. cbn. now rewrite IH. Qed.
Lemma mapM_err_ex {A B} (f : A -> result B) l e : mapM f l = Err e -> exists x, In x l /\ f x = Err e.
Proof.
  induction l as [|a l IH]; [discriminate|]. cbn [mapM]. destruct (f a) as [b|e'] eqn:E; cbn [bind].
  - destruct (mapM f l); [discriminate|]. cbn [bind]. intros H. destruct IH as (x & Hx & Hf); [assumption|]. exists x. split; [now right|assumption].
  - intros H. exists a. split; [now left|congruence].
Qed.
Lemma ln2_pos : 0 < ln 2.
Proof. rewrite <- ln_1. apply ln_increasing; lra. Qed.
Lemma log2_nonneg x : 1 <= x -> 0 <= log2 x.
Proof.
  intros H. unfold log2. apply Rmult_le_pos; [|left; apply Rinv_0_lt_compat, ln2_pos].
  destruct H as [H|H]; [left; rewrite <- ln_1; apply ln_increasing; lra|rewrite <- H, ln_1; lra].
Qed.
Lemma log2_pos x : 1 < x -> 0 < log2 x.
Proof. intros H. unfold log2. apply Rmult_lt_0_compat; [|apply Rinv_0_lt_compat, ln2_pos]. rewrite <- ln_1. apply ln_increasing; lra. Qed.
Lemma ln_pow x n : 0 < x -> ln (x ^ n) = INR n * ln x.
Proof.
  intros H. induction n as [|n IH]; [cbn [pow]; rewrite ln_1; cbn; ring|]. cbn [pow]. rewrite ln_mult by (try assumption; now apply pow_lt). rewrite IH, S_INR. ring.
Qed.
Lemma log2_pow k : log2 (INR (2 ^ k)) = INR k.
Proof. unfold log2. rewrite pow_INR. change (INR 2) with 2. rewrite ln_pow by lra. field. pose proof ln2_pos. lra. Qed.
Lemma Rsum_pos l : l <> [] -> (forall x, In x l -> 0 < x) -> 0 < Rsum l.
Proof.
  intros Hne H. destruct l as [|a l]; [congruence|]. rewrite Rsum_cons. assert (0 < a) by (apply H; now left).
  assert (0 <= Rsum l) by (apply Rsum_nonneg; intros x Hx; left; apply H; now right). lra.
Qed.
Lemma Rsum_ge_in {A} (f : A -> R) l x : (forall y, In y l -> 0 <= f y) -> In x l -> f x <= Rsum (map f l).
Proof.
  induction l as [|a l IH]; intros H Hin; [destruct Hin|]. cbn [map]. rewrite Rsum_cons.
  assert (0 <= f a) by (apply H; now left). assert (0 <= Rsum (map f l)).
  { apply Rsum_nonneg. intros y Hy. apply in_map_iff in Hy as (z & <- & Hz). apply H. now right. }
  destruct Hin as [->|Hin]; [lra|]. assert (f x <= Rsum (map f l)) by (apply IH; [intros; apply H; now right|assumption]). lra.
Qed.
Lemma Rsum_lt_n l : l <> [] -> Forall (fun x => x < 1) l -> Rsum l < INR (length l).
Proof.
  intros Hne H. induction H as [|x l Hx Hl IH]; [congruence|]. rewrite Rsum_cons. cbn [length]. rewrite S_INR.
  destruct l as [|y l]; [cbn; lra|]. specialize (IH ltac:(discriminate)). lra.
Qed.

(** ** C26: GMI *)
Lemma gmi_bit_lt bits lv : length bits = length lv -> lv <> [] -> gmi_bit bits lv < 1.
Proof.
  intros Hl Hne. unfold gmi_bit, Rmean. set (l := map _ (combine bits lv)).
  assert (Hll : (0 < length l)%nat) by (unfold l; rewrite map_length, combine_length; destruct lv; [congruence|cbn in *; lia]).
  assert (0 < Rsum l / INR (length l)); [|lra]. apply Rmult_lt_0_compat; [|now apply Rinv_0_lt_compat, lt_0_INR].
  apply Rsum_pos; [intros E; rewrite E in Hll; cbn in Hll; lia|]. intros x Hx. unfold l in Hx. apply in_map_iff in Hx as (p & <- & _).
  apply log2_pos. pose proof (exp_pos ((if fst p then -1 else 1) * snd p)). lra.
Qed.
Lemma gmi_mode_bound mp k mm rx bits snr g : gmi_mode mp k mm rx bits snr = Ok (Some g) -> length g = k /\ Forall (fun x => x < 1) g.
Proof.
  unfold gmi_mode. destruct snr as [s|]; [|discriminate]. destruct (soft_l_value_demapper _ _ _ _ _) as [lv|] eqn:El; [|discriminate]. cbn [bind].
  destruct lv as [|l0 lv]; [discriminate|]. destruct (reshape k bits) as [rows|] eqn:Er; [|discriminate]. cbn [bind].
  destruct (mapM _ (seq 0 k)) as [g'|] eqn:Em; [|discriminate]. cbn [bind]. intros E. injection E as ->. split; [apply mapM_length in Em; now rewrite Em, seq_length|].
  apply Forall_forall. intros x Hx. apply In_nth_error in Hx as (b & Hb).
  assert (Hbk : (b < k)%nat). { apply nth_error_Some_lt in Hb. apply mapM_length in Em. rewrite seq_length in Em. lia. }
  destruct (mapM_nth _ _ _ b b Em) as (y & Hy & Hf); [now apply nth_error_seq|].
  assert (y = x) by congruence. subst y. destruct (column b rows) as [bc|] eqn:Eb; [|discriminate]. cbn [bind] in Hf.
  destruct (column b (l0 :: lv)) as [lc|] eqn:Elc; [|discriminate]. cbn [bind] in Hf. destruct (Nat.eqb_spec (length bc) (length lc)) as [E|]; [|discriminate].
  injection Hf as <-. apply gmi_bit_lt; [assumption|]. intros ->. apply mapM_length in Elc. discriminate.
Qed.
Lemma c26_gmi mp k symbols sig synced snr mm res : (1 <= k)%nat -> cal_gmi mp k symbols sig synced snr mm = Ok res ->
  length res = length sig /\ forall m g, nth_error res m = Some (Some g) -> length g = k /\ Forall (fun x => x < 1) g /\ Rsum g < INR k.
Proof.
  intros Hk. unfold cal_gmi. destruct (signal_sync_and_adjust _ _ _) as [p|]; [|discriminate]. cbn [bind].
  destruct (gmi_snr _ _ _ _ _) as [s|]; [|discriminate]. cbn [bind]. destruct (demodulate _ _) as [bits|]; [|discriminate]. cbn [bind]. intros Em.
  split; [apply mapM_length in Em; now rewrite Em, seq_length|]. intros m g Hg.
  assert (Hm : (m < length sig)%nat). { apply nth_error_Some_lt in Hg. apply mapM_length in Em. rewrite seq_length in Em. lia. }
  destruct (mapM_nth _ _ _ m m Em) as (y & Hy & Hf); [now apply nth_error_seq|]. assert (y = Some g) by congruence. subst y.
  destruct (getn (snd p) m) as [r|]; [|discriminate]. cbn [bind] in Hf. destruct (getn bits m) as [b|]; [|discriminate]. cbn [bind] in Hf.
  destruct (getn s m) as [x|]; [|discriminate]. cbn [bind] in Hf. apply gmi_mode_bound in Hf as [HL HF]. split; [assumption|]. split; [assumption|].
  rewrite <- HL. apply Rsum_lt_n; [|assumption]. intros ->. cbn in HL. lia.
Qed.
Lemma lib_bitmap k mp : (1 <= k)%nat -> lib_mapping k mp -> length (bitmap_mtx mp) = k /\
  forall b, (b < k)%nat -> exists zs os, nth_error (bitmap_mtx mp) b = Some (zs, os) /\
      length zs = (2 ^ (k - 1))%nat /\ length os = (2 ^ (k - 1))%nat /\
      map Some zs = map (nth_error (coded_symbols mp)) (filter (fun i => negb (label_bit k b i)) (seq 0 (2 ^ k))) /\
      map Some os = map (nth_error (coded_symbols mp)) (filter (label_bit k b) (seq 0 (2 ^ k))).
Proof. intros Hk [H|H]; [now apply qam_bitmap|now apply psk_bitmap]. Qed.

Lemma demapper_ok k mp mm rx snr : (1 <= k)%nat -> lib_mapping k mp ->
  exists lv, soft_l_value_demapper mm rx k snr (bitmap_mtx mp) = Ok lv /\ length lv = length rx /\
    forall i x l, nth_error rx i = Some x -> nth_error lv i = Some l -> length l = k /\
      forall b row, (b < k)%nat -> nth_error (bitmap_mtx mp) b = Some row -> nth_error l b = Some (if mm then minmax_l_value row x snr else cal_l_value row x snr).
Proof.
  intros Hk Hm. destruct (lib_bitmap k mp Hk Hm) as (HL & Hb).
  set (row b := match nth_error (bitmap_mtx mp) b with Some r => r | None => ([], []) end).
  set (lval x b := if mm then minmax_l_value (row b) x snr else cal_l_value (row b) x snr).
  exists (map (fun x => map (lval x) (seq 0 k)) rx). split.
  - unfold soft_l_value_demapper. apply mapM_ok. intros x _. apply mapM_ok. intros b Hin. apply in_seq in Hin.
    destruct (nth_error_lt_Some (bitmap_mtx mp) b) as (r & Hr); [lia|]. unfold getn, lval, row. rewrite Hr. reflexivity.
  - split; [apply map_length|]. intros i x l Hx Hl. rewrite nth_error_map, Hx in Hl. cbn in Hl. injection Hl as <-. split; [now rewrite map_length, seq_length|].
    intros b r Hbk Hr. rewrite nth_error_map, nth_error_seq by assumption. cbn. unfold lval, row. now rewrite Hr.
Qed.
Lemma c26_total k mp symbols sig synced snr mm tx rx N : (1 <= k <= 16)%nat -> lib_mapping k mp -> signal_sync_and_adjust symbols sig synced = Ok (tx, rx) ->
  (0 < N)%nat -> rect tx N -> rect rx N -> length tx = length sig -> length rx = length sig -> (length snr = length sig \/ length snr = 1%nat) ->
  exists res, cal_gmi mp k symbols sig synced (Some snr) mm = Ok (map Some res).
Proof.
  intros Hk Hm Hs HN Ht Hr Hl Hl2 Hsnr.
  assert (Hg : exists sv, gmi_snr mp tx rx (length sig) (Some snr) = Ok (map Some sv) /\ length sv = length sig).
  { cbn [gmi_snr]. destruct (Nat.eqb_spec (length snr) (length sig)) as [E|E].
    - exists (map (fun x => pow10 (x / 10)) snr). rewrite map_map, map_length. split; [reflexivity|assumption].
    - destruct Hsnr as [|H1]; [contradiction|]. destruct snr as [|x [|y snr]]; try discriminate. exists (repeat (pow10 (x / 10)) (length sig)).
      split; [|apply repeat_length]. f_equal. symmetry. apply map_rep. }
  destruct Hg as (sv & Eg & Lg).
  unfold cal_gmi. rewrite Hs. cbn [bind fst snd]. rewrite Eg. cbn [bind]. rewrite (demodulate_any mp k) by assumption. cbn [bind].
  set (bits := map _ tx).
  assert (Hone : forall i, In i (seq 0 (length sig)) -> exists g, (let! r := getn rx i in let! b := getn bits i in let! x := getn (map Some sv) i in gmi_mode mp k mm r b x) = Ok (Some g)).
  { intros i Hi. apply in_seq in Hi. destruct (nth_error_lt_Some rx i) as (r & Er); [lia|]. destruct (nth_error_lt_Some tx i) as (t & Et); [lia|].
    destruct (nth_error_lt_Some sv i) as (s & Es); [lia|]. unfold getn. rewrite Er. cbn [bind]. unfold bits. rewrite !nth_error_map, Et, Es. cbn [bind option_map].
    unfold gmi_mode. destruct (demapper_ok k mp mm r s ltac:(lia) Hm) as (lv & El & Hlv & Hlrow). rewrite El. cbn [bind].
    assert (HrN : length r = N) by exact (rect_nth _ _ _ _ Hr Er). assert (HtN : length t = N) by exact (rect_nth _ _ _ _ Ht Et).
    destruct lv as [|l0 lv]; [cbn in Hlv; lia|]. set (lvs := l0 :: lv) in *.
    set (bt := concat (map _ t)). assert (Hbt : length bt = (N * k)%nat).
    { unfold bt. rewrite <- HtN. clear. induction t as [|x t IH]; [reflexivity|]. cbn [map concat length]. rewrite app_length, encode_row_length, IH. lia. }
    unfold reshape. rewrite Hbt, Nat.mod_mul by lia. destruct (Nat.eqb_spec k 0); [lia|]. cbn [orb negb Nat.eqb bind].
    assert (Hrows : length (chunks k bt) = N) by (apply chunks_length_mul; lia).
    assert (Hcol : forall b, (b < k)%nat -> (exists bc, column b (chunks k bt) = Ok bc /\ length bc = N) /\ (exists lc, column b lvs = Ok lc /\ length lc = N)).
    { intros b Hbk. split.
      - destruct (column b (chunks k bt)) as [bc|e] eqn:E; [exists bc; split; [reflexivity|apply mapM_length in E; lia]|]. exfalso.
        apply mapM_err_ex in E as (c & Hc & He). unfold getn in He.
        pose proof (chunks_elem_length k bt N c ltac:(lia) ltac:(lia) Hc) as Hcl. destruct (nth_error_lt_Some c b) as (v & Ev); [lia|]. rewrite Ev in He. discriminate.
      - destruct (column b lvs) as [lc|e] eqn:E; [exists lc; split; [reflexivity|apply mapM_length in E; lia]|]. exfalso.
        apply mapM_err_ex in E as (c & Hc & He). unfold getn in He. apply In_nth_error in Hc as (j & Hj).
        destruct (nth_error_lt_Some r j) as (x & Ex); [apply nth_error_Some_lt in Hj; lia|]. destruct (Hlrow j x c Ex Hj) as (HLc & _).
        destruct (nth_error_lt_Some c b) as (v & Ev); [lia|]. rewrite Ev in He. discriminate. }
    destruct (mapM _ (seq 0 k)) as [g|e] eqn:E; [exists g; reflexivity|]. exfalso. apply mapM_err_ex in E as (b & Hb & He). apply in_seq in Hb.
    destruct (Hcol b ltac:(lia)) as ((bc & E1 & L1) & (lc & E2 & L2)). rewrite E1, E2 in He. cbn [bind] in He. rewrite L1, L2, Nat.eqb_refl in He. discriminate. }
  clear - Hone. induction (seq 0 (length sig)) as [|i l IH]; [exists []; reflexivity|]. destruct (Hone i) as (g & Eg); [now left|].
  destruct IH as (res & Er); [intros j Hj; apply Hone; now right|]. exists (g :: res). cbn [mapM]. rewrite Eg. cbn [bind]. rewrite Er. reflexivity.
Qed.

(** ** C26: MI *)
Lemma mi_fast_bound sig tx cs N0 v : cs <> [] -> Forall (fun s => In s cs) tx -> cal_mi_mc_fast sig tx cs N0 = Some v -> v <= log2 (INR (length cs)).
Proof.
  intros Hne HF. unfold cal_mi_mc_fast. destruct sig as [|z0 sig]; [discriminate|]. set (sg := z0 :: sig). intros E. apply (f_equal (fun o => match o with Some w => w | None => 0 end)) in E. cbv beta iota zeta in E. rewrite <- E. clear E.
  assert (0 <= Rsum (map (fun p => log2 (Rsum (map (fun s => exp (- (Cabs (fst p - s)%C ^ 2 - Cabs (fst p - snd p)%C ^ 2) / N0)) cs))) (combine sg tx))).
  { apply Rsum_nonneg. intros x Hx. apply in_map_iff in Hx as ([r t] & <- & Hin). cbn [fst snd]. apply log2_nonneg. apply in_combine_r in Hin.
    rewrite Forall_forall in HF. specialize (HF t Hin).
    pose proof (Rsum_ge_in (fun s => exp (- (Cabs (r - s)%C ^ 2 - Cabs (r - t)%C ^ 2) / N0)) cs t (fun y _ => Rlt_le _ _ (exp_pos _)) HF) as H. cbv beta in H.
    replace (- (Cabs (r - t)%C ^ 2 - Cabs (r - t)%C ^ 2) / N0) with 0 in H; [rewrite exp_0 in H; exact H|]. unfold Rdiv. ring. }
  assert (0 < INR (length sg)) by (apply lt_0_INR; cbn; lia). apply Rle_trans with (log2 (INR (length cs)) - 0); [|lra]. apply Rplus_le_compat_l, Ropp_le_contravar.
  apply Rmult_le_pos; [assumption|left; now apply Rinv_0_lt_compat].
Qed.
Lemma mi_mc_bound noise cs N0 v : cal_mi_mc noise cs N0 = Some v -> v <= log2 (INR (length cs)).
Proof.
  unfold cal_mi_mc. destruct noise as [|n0 noise]; [discriminate|]. destruct cs as [|c0 cs]; [discriminate|]. set (al := c0 :: cs). set (ns := n0 :: noise).
  intros E. apply (f_equal (fun o => match o with Some w => w | None => 0 end)) in E. cbv beta iota zeta in E. rewrite <- E. clear E.
  match goal with |- _ - ?t / _ / _ <= _ => set (tot := t) end.
  assert (0 <= tot).
  { apply Rsum_nonneg. intros x Hx. apply in_map_iff in Hx as (si & <- & Hin). apply Rsum_nonneg. intros y Hy. apply in_map_iff in Hy as (z & <- & _). apply log2_nonneg.
    pose proof (Rsum_ge_in (fun sj => exp (- (Cabs (si - sj)%C ^ 2 + 2 * fst ((si - sj) * z)%C) / N0)) al si (fun y _ => Rlt_le _ _ (exp_pos _)) Hin) as H. cbv beta in H.
    replace (- (Cabs (si - si)%C ^ 2 + 2 * fst ((si - si) * z)%C) / N0) with 0 in H; [rewrite exp_0 in H; exact H|].
    rewrite Cabs_pow2, Csub_diag, Cnorm2_0. unfold Cmul, C0. cbn [fst snd]. unfold Rdiv. ring. }
  assert (0 < INR (length al)) by (apply lt_0_INR; cbn; lia). assert (0 < INR (length ns)) by (apply lt_0_INR; cbn; lia).
  change (log2 (INR (length al)) - tot / INR (length al) / INR (length ns) <= log2 (INR (length al))).
  assert (0 <= tot / INR (length al) / INR (length ns)); [|lra]. repeat (apply Rmult_le_pos; [|left; now apply Rinv_0_lt_compat]). assumption.
Qed.
Lemma c26_mi k mp symbols sig synced snr fast tx rx res : (1 <= k)%nat -> lib_mapping k mp -> signal_sync_and_adjust symbols sig synced = Ok (tx, rx) ->
  over (coded_symbols mp) tx -> cal_mi mp symbols sig synced snr fast = Ok res ->
  length res = length sig /\ forall m v, nth_error res m = Some (Some v) -> v <= INR k.
Proof.
  intros Hk Hm Hs Hov. destruct (lib_facts k mp Hk Hm) as (_ & HL & _ & Hne). unfold cal_mi. rewrite Hs. cbn [bind fst snd].
  destruct (mi_n0 _ _ _ _ _) as [n0|]; [|discriminate]. cbn [bind]. intros Em. split; [apply mapM_length in Em; now rewrite Em, seq_length|]. intros m v Hv.
  assert (Hml : (m < length sig)%nat). { apply nth_error_Some_lt in Hv. apply mapM_length in Em. rewrite seq_length in Em. lia. }
  destruct (mapM_nth _ _ _ m m Em) as (y & Hy & Hf); [now apply nth_error_seq|]. assert (y = Some v) by congruence. subst y.
  destruct (getn tx m) as [t|] eqn:Et; [|discriminate]. cbn [bind] in Hf. destruct (getn rx m) as [r|]; [|discriminate]. cbn [bind] in Hf.
  destruct (getn n0 m) as [[x|]|]; cbn [bind] in Hf; try discriminate. injection Hf as Hf.
  rewrite <- log2_pow, <- HL. unfold core_cal_mi in Hf. destruct fast; [|eapply mi_mc_bound; eassumption].
  eapply mi_fast_bound; try eassumption. unfold over in Hov. rewrite Forall_forall in Hov. apply Hov. unfold getn in Et.
  destruct (nth_error tx m) eqn:E; [|discriminate]. injection Et as <-. eapply nth_error_In; eassumption.
Qed.
Lemma c26_mi_total k mp symbols sig synced snr fast tx rx N : (1 <= k)%nat -> lib_mapping k mp -> signal_sync_and_adjust symbols sig synced = Ok (tx, rx) ->
  (0 < N)%nat -> rect tx N -> rect rx N -> length tx = length sig -> length rx = length sig -> (length snr = length sig \/ length snr = 1%nat) ->
  exists res, cal_mi mp symbols sig synced (Some snr) fast = Ok (map Some res).
Proof.
  intros Hk Hm Hs HN Ht Hr Hl Hl2 Hsnr. destruct (lib_facts k mp Hk Hm) as (_ & _ & _ & Hne).
  assert (Hg : exists sv, mi_n0 mp tx rx (length sig) (Some snr) = Ok (map Some sv) /\ length sv = length sig).
  { cbn [mi_n0]. destruct (Nat.eqb_spec (length snr) (length sig)) as [E|E].
    - exists (map (fun x => pow10 (- x / 10)) snr). rewrite map_map, map_length. split; [reflexivity|assumption].
    - destruct Hsnr as [|H1]; [contradiction|]. destruct snr as [|x [|y snr]]; try discriminate. exists (repeat (pow10 (- x / 10)) (length sig)).
      split; [|apply repeat_length]. f_equal. symmetry. apply map_rep. }
  destruct Hg as (sv & Eg & Lg). unfold cal_mi. rewrite Hs. cbn [bind fst snd]. rewrite Eg. cbn [bind].
  assert (Hone : forall i, In i (seq 0 (length sig)) -> exists g, (let! t := getn tx i in let! r := getn rx i in let! x := getn (map Some sv) i in
      Ok (match x with Some v => core_cal_mi r t (coded_symbols mp) v fast | None => None end)) = Ok (Some g)).
  { intros i Hi. apply in_seq in Hi. destruct (nth_error_lt_Some rx i) as (r & Er); [lia|]. destruct (nth_error_lt_Some tx i) as (t & Et); [lia|].
    destruct (nth_error_lt_Some sv i) as (s & Es); [lia|]. unfold getn. rewrite nth_error_map, Er, Et, Es. cbn [bind option_map].
    assert (HrN : length r = N) by exact (rect_nth _ _ _ _ Hr Er). assert (HtN : length t = N) by exact (rect_nth _ _ _ _ Ht Et).
    destruct r as [|r0 r]; [cbn in HrN; lia|]. destruct t as [|t0 t]; [cbn in HtN; lia|]. destruct (coded_symbols mp) as [|c0 cs]; [congruence|].
    unfold core_cal_mi. destruct fast; eexists; reflexivity. }
  clear - Hone. induction (seq 0 (length sig)) as [|i l IH]; [exists []; reflexivity|]. destruct (Hone i) as (g & Eg); [now left|].
  destruct IH as (res & Er); [intros j Hj; apply Hone; now right|]. exists (g :: res). cbn [mapM]. rewrite Eg. cbn [bind]. rewrite Er. reflexivity.
Qed.

(** ** C26: Monte Carlo GMI *)
Lemma Rsum_filter_split {A} (f : A -> R) (p : A -> bool) l : Rsum (map f l) = Rsum (map f (filter (fun x => negb (p x)) l)) + Rsum (map f (filter p l)).
Proof. induction l as [|x l IH]; [cbn; ring|]. cbn [map filter]. rewrite Rsum_cons, IH. destruct (p x); cbn [negb map]; rewrite Rsum_cons; ring. Qed.
Lemma split_sum (f : C -> R) cs zs os p n : length cs = n ->
  map Some zs = map (nth_error cs) (filter (fun i => negb (p i)) (seq 0 n)) -> map Some os = map (nth_error cs) (filter p (seq 0 n)) ->
  Rsum (map f cs) = Rsum (map f zs) + Rsum (map f os).
Proof.
  intros Hn Hz Ho. set (fo o := match o with Some z => f z | None => 0 end).
  assert (E : forall l, map f l = map fo (map Some l)) by (intros l; rewrite map_map; reflexivity).
  assert (Ec : map Some cs = map (nth_error cs) (seq 0 n)).
  { apply nth_error_ext_lt; [rewrite !map_length, seq_length; lia|]. intros i Hi. rewrite map_length in Hi. rewrite !nth_error_map, nth_error_seq by lia. cbn.
    destruct (nth_error_lt_Some cs i Hi) as (a & Ea). now rewrite Ea. }
  rewrite !E, Hz, Ho, Ec, !map_map. apply Rsum_filter_split.
Qed.
Lemma c26_gmi_mc k mp snr z : (1 <= k)%nat -> lib_mapping k mp -> z <> [] ->
  exists v, cal_gmi_mc (coded_symbols mp) k snr z (bitmap_mtx mp) = Ok v /\ v <= INR k.
Proof.
  intros Hk Hm Hz. destruct (lib_facts k mp Hk Hm) as (_ & HL & _ & Hne). destruct (lib_bitmap k mp Hk Hm) as (HLb & Hb). set (cs := coded_symbols mp) in *.
  unfold cal_gmi_mc. destruct (mapM _ (seq 0 k)) as [parts|e] eqn:Em.
  2:{ exfalso. apply mapM_err_ex in Em as (b & Hbin & He). apply in_seq in Hbin. destruct (Hb b) as (zs & os & Hr & _); [lia|]. unfold getn in He. rewrite Hr in He. discriminate. }
  cbn [bind]. eexists. split; [reflexivity|].
  assert (0 <= Rsum parts).
  { apply Rsum_nonneg. intros x Hx. apply In_nth_error in Hx as (b & Hx).
    assert (Hbk : (b < k)%nat). { apply nth_error_Some_lt in Hx. apply mapM_length in Em. rewrite seq_length in Em. lia. }
    destruct (mapM_nth _ _ _ b b Em) as (y & Hy & Hf); [now apply nth_error_seq|]. assert (y = x) by congruence. subst y.
    destruct (Hb b Hbk) as (zs & os & Hr & _ & _ & Ez & Eo). unfold getn in Hf. rewrite Hr in Hf. cbn [bind] in Hf. apply (f_equal (fun o => match o with Ok w => w | Err _ => 0 end)) in Hf. cbv beta iota in Hf. rewrite <- Hf. clear Hf. cbn [fst snd].
    apply Rsum_nonneg. intros x1 Hx1. apply in_map_iff in Hx1 as (l & <- & Hl). apply Rsum_nonneg. intros x2 Hx2. apply in_map_iff in Hx2 as (zz & <- & _).
    apply Rsum_nonneg. intros x3 Hx3. apply in_map_iff in Hx3 as (sym & <- & Hsym). apply log2_nonneg.
    set (f := fun s => exp (- snr * (2 * fst (zz * (sym - s))%C + Cabs (sym - s)%C ^ 2))).
    pose proof (split_sum f cs zs os (label_bit k b) (2 ^ k) HL Ez Eo) as Hsplit.
    assert (Hnn : forall l', 0 <= Rsum (map f l')). { intros l'. apply Rsum_nonneg. intros u Hu. apply in_map_iff in Hu as (w & <- & _). left. apply exp_pos. }
    assert (Hpos : 0 < cal_exp_sum sym l zz snr). { apply Rsum_pos; [destruct l; [destruct Hsym|discriminate]|]. intros u Hu. apply in_map_iff in Hu as (w & <- & _). apply exp_pos. }
    assert (Hle : cal_exp_sum sym l zz snr <= cal_exp_sum sym cs zz snr).
    { unfold cal_exp_sum. fold f. pose proof (Hnn zs). pose proof (Hnn os). destruct Hl as [<-|[<-|[]]]; lra. }
    apply Rmult_le_reg_r with (cal_exp_sum sym l zz snr); [assumption|]. unfold Rdiv. rewrite Rmult_assoc, Rinv_l by lra. lra. }
  assert (0 < INR (length cs) * INR (length z)).
  { apply Rmult_lt_0_compat; apply lt_0_INR; [destruct cs|destruct z]; cbn; try congruence; lia. }
  assert (0 <= Rsum parts / (INR (length cs) * INR (length z))); [|lra]. apply Rmult_le_pos; [assumption|left; now apply Rinv_0_lt_compat].
Qed.

(** ** C27 *)
Lemma lim_min_spec x l : l <> [] -> (forall s, In s l -> Cabs (s - x)%C ^ 2 < 10000) ->
  exists s, In s l /\ lim_min x l = Cabs (s - x)%C ^ 2 /\ forall t, In t l -> lim_min x l <= Cabs (t - x)%C ^ 2.
Proof.
  intros Hne Hlt. unfold lim_min.
  assert (Hgen : forall l m, let r := fold_left (fun m s => let d := Cabs (s - x)%C ^ 2 in if Rlt_dec d m then d else m) l m in
     r <= m /\ (forall t, In t l -> r <= Cabs (t - x)%C ^ 2) /\ (r = m \/ exists s, In s l /\ r = Cabs (s - x)%C ^ 2)).
  { clear. induction l as [|a l IH]; intros m; cbn [fold_left].
    - split; [lra|]. split; [intros t []|now left].
    - cbv zeta. destruct (Rlt_dec (Cabs (a - x)%C ^ 2) m) as [H|H].
      + destruct (IH (Cabs (a - x)%C ^ 2)) as (I1 & I2 & I3). split; [lra|]. split; [intros t [<-|Ht]; auto|]. right.
        destruct I3 as [E|(s & Hs & E)]; [exists a; split; [now left|assumption]|exists s; split; [now right|assumption]].
      + destruct (IH m) as (I1 & I2 & I3). split; [lra|]. split; [intros t [<-|Ht]; [lra|auto]|].
        destruct I3 as [E|(s & Hs & E)]; [now left|right; exists s; split; [now right|assumption]]. }
  destruct (Hgen l 10000) as (H1 & H2 & H3). cbv zeta in H1, H2, H3. destruct H3 as [E|(s & Hs & E)]; [|exists s; auto].
  exfalso. destruct l as [|a l]; [congruence|]. specialize (H2 a (or_introl eq_refl)). specialize (Hlt a (or_introl eq_refl)). rewrite E in H2. lra.
Qed.
Lemma Cabs_sub_sym a b : Cabs (a - b)%C = Cabs (b - a)%C.
Proof. unfold Cabs. now rewrite Cnorm2_sub_sym. Qed.
Lemma pow2_le a b : 0 <= a -> 0 <= b -> (a ^ 2 <= b ^ 2 <-> a <= b).
Proof. intros Ha Hb. split; intros H; [|apply pow_incr; lra]. apply Rnot_lt_le. intros Hc. assert (b ^ 2 < a ^ 2) by nra. lra. Qed.
Lemma lim_min_nearest x l s : (forall s, In s l -> Cabs (s - x)%C ^ 2 < 10000) -> nearest l x s -> lim_min x l = Cabs (x - s)%C ^ 2.
Proof.
  intros Hlt [Hin Hn]. destruct (lim_min_spec x l) as (u & Hu & Eu & Hmin); [intros ->; destruct Hin|assumption|]. specialize (Hmin s Hin). specialize (Hn u Hu).
  rewrite Cabs_sub_sym in Hmin. rewrite Eu in *. rewrite (Cabs_sub_sym u x) in *. apply Rle_antisym; [assumption|]. apply pow2_le; try apply Cabs_nonneg. assumption.
Qed.
Lemma log_sum_exp x snr l : 0 < snr -> l <> [] -> (forall s, In s l -> Cabs (s - x)%C ^ 2 < 10000) ->
  - snr * lim_min x l <= ln (exp_dists x snr l) <= - snr * lim_min x l + ln (INR (length l)).
Proof.
  intros Hs Hne Hlt. destruct (lim_min_spec x l Hne Hlt) as (s & Hin & E & Hmin). set (m := lim_min x l) in *.
  assert (Hpos : 0 < exp_dists x snr l). { apply Rsum_pos; [destruct l; [congruence|discriminate]|]. intros u Hu. apply in_map_iff in Hu as (w & <- & _). apply exp_pos. }
  assert (Hn : 0 < INR (length l)) by (apply lt_0_INR; destruct l; [congruence|cbn; lia]).
  assert (Hlo : exp (- snr * m) <= exp_dists x snr l).
  { rewrite E. apply (Rsum_ge_in (fun s => exp (- snr * Cabs (s - x)%C ^ 2))); [|assumption]. intros y _. left. apply exp_pos. }
  assert (Hhi : exp_dists x snr l <= INR (length l) * exp (- snr * m)).
  { rewrite <- (Rsum_map_const (exp (- snr * m)) l). apply Rsum_le. intros t Ht. specialize (Hmin t Ht).
    destruct (Rle_lt_or_eq_dec _ _ Hmin) as [H|H]; [left; apply exp_increasing; nra|rewrite <- H; right; reflexivity]. }
  assert (Hln : forall a b, 0 < a -> a <= b -> ln a <= ln b) by (intros a b Ha [H|H]; [left; now apply ln_increasing|right; now rewrite H]).
  split.
  - rewrite <- (ln_exp (- snr * m)). apply Hln; [apply exp_pos|assumption].
  - apply Hln in Hhi; [|assumption]. rewrite ln_mult, ln_exp in Hhi by (try assumption; apply exp_pos). lra.
Qed.

Lemma in_bit_row (cs l : list C) p n : map Some l = map (nth_error cs) (filter p (seq 0 n)) -> forall s, In s l <-> exists i, (i < n)%nat /\ p i = true /\ nth_error cs i = Some s.
Proof.
  intros E s. split.
  - intros H. apply (in_map Some) in H. rewrite E in H. apply in_map_iff in H as (i & Hi & Hin). apply filter_In in Hin as [Hin Hp]. apply in_seq in Hin. exists i. repeat split; [lia|assumption|assumption].
  - intros (i & Hi & Hp & Hs). assert (H : In (Some s) (map Some l)).
    { rewrite E. apply in_map_iff. exists i. split; [assumption|]. apply filter_In. split; [apply in_seq; lia|assumption]. }
    apply in_map_iff in H as (t & Et & Ht). injection Et as ->. assumption.
Qed.

Lemma c27 k mp rx snr : (1 <= k)%nat -> lib_mapping k mp -> 0 < snr ->
  (forall x s, In x rx -> In s (coded_symbols mp) -> Cabs (x - s)%C ^ 2 < 10000) ->
  exists lmm lex, soft_l_value_demapper true rx k snr (bitmap_mtx mp) = Ok lmm /\ soft_l_value_demapper false rx k snr (bitmap_mtx mp) = Ok lex /\
    length lmm = length rx /\ length lex = length rx /\
    forall j x b, nth_error rx j = Some x -> (b < k)%nat ->
    exists row row' v v', nth_error lmm j = Some row /\ nth_error lex j = Some row' /\ length row = k /\ length row' = k /\
      nth_error row b = Some v /\ nth_error row' b = Some v' /\
      Rabs (v' - v) <= ln (INR (2 ^ k) / 2) /\
      forall i s, nth_error (coded_symbols mp) i = Some s -> nearest (coded_symbols mp) x s ->
        (if label_bit k b i then 0 <= v else v <= 0) /\
        ((forall i' t, nth_error (coded_symbols mp) i' = Some t -> nearest (coded_symbols mp) x t -> label_bit k b i' = label_bit k b i) ->
         if label_bit k b i then 0 < v else v < 0).
Proof.
  intros Hk Hm Hs Hd. destruct (lib_facts k mp Hk Hm) as (Hnd & HL & _ & Hne). destruct (lib_bitmap k mp Hk Hm) as (HLb & Hb). set (cs := coded_symbols mp) in *.
  destruct (demapper_ok k mp true rx snr Hk Hm) as (lmm & E1 & L1 & R1). destruct (demapper_ok k mp false rx snr Hk Hm) as (lex & E2 & L2 & R2).
  exists lmm, lex. repeat (split; [assumption|]). intros j x b Hx Hbk.
  destruct (nth_error_lt_Some lmm j) as (row & Hrow); [apply nth_error_Some_lt in Hx; lia|]. destruct (nth_error_lt_Some lex j) as (row' & Hrow'); [apply nth_error_Some_lt in Hx; lia|].
  destruct (R1 j x row Hx Hrow) as (LR & R). destruct (R2 j x row' Hx Hrow') as (LR' & R'). destruct (Hb b Hbk) as (zs & os & Hbm & Lz & Lo & Ez & Eo).
  specialize (R b _ Hbk Hbm). specialize (R' b _ Hbk Hbm). cbv iota in R, R'.
  exists row, row', (minmax_l_value (zs, os) x snr), (cal_l_value (zs, os) x snr). repeat (split; [assumption|]).
  assert (Hp2 : (0 < 2 ^ (k - 1))%nat) by (apply Nat.neq_0_lt_0, Nat.pow_nonzero; lia).
  assert (Hxin : In x rx) by (eapply nth_error_In; eassumption).
  assert (Hz : forall s, In s zs <-> exists i, (i < 2 ^ k)%nat /\ negb (label_bit k b i) = true /\ nth_error cs i = Some s) by now apply in_bit_row.
  assert (Ho : forall s, In s os <-> exists i, (i < 2 ^ k)%nat /\ label_bit k b i = true /\ nth_error cs i = Some s) by now apply in_bit_row.
  assert (Hzd : forall s, In s zs -> Cabs (s - x)%C ^ 2 < 10000).
  { intros s H. rewrite Cabs_sub_sym. apply Hd; [assumption|]. apply Hz in H as (i & _ & _ & Hi). eapply nth_error_In; eassumption. }
  assert (Hod : forall s, In s os -> Cabs (s - x)%C ^ 2 < 10000).
  { intros s H. rewrite Cabs_sub_sym. apply Hd; [assumption|]. apply Ho in H as (i & _ & _ & Hi). eapply nth_error_In; eassumption. }
  assert (Nz : zs <> []) by (intros ->; cbn in Lz; lia). assert (No : os <> []) by (intros ->; cbn in Lo; lia).
  unfold minmax_l_value, find_minmax, cal_l_value. cbn [fst snd]. split.
  - pose proof (log_sum_exp x snr zs Hs Nz Hzd) as B0. pose proof (log_sum_exp x snr os Hs No Hod) as B1. rewrite Lz in B0. rewrite Lo in B1.
    assert (Eh : INR (2 ^ k) / 2 = INR (2 ^ (k - 1))).
    { replace k with (S (k - 1)) at 1 by lia. rewrite Nat.pow_succ_r', mult_INR. change (INR 2) with 2. field. }
    rewrite Eh. apply Rabs_le. lra.
  - intros i s Hi Hn. destruct Hn as [Hin Hmin].
    assert (Hik : (i < 2 ^ k)%nat) by (apply nth_error_Some_lt in Hi; lia).
    assert (Hcs : forall t, In t zs \/ In t os -> In t cs). { intros t [H|H]; [apply Hz in H|apply Ho in H]; destruct H as (i' & _ & _ & Hi'); eapply nth_error_In; eassumption. }
    destruct (lim_min_spec x zs Nz Hzd) as (u0 & U0 & V0 & _). destruct (lim_min_spec x os No Hod) as (u1 & U1 & V1 & _). rewrite Cabs_sub_sym in V0, V1.
    destruct (label_bit k b i) eqn:Eb.
    + assert (Es : lim_min x os = Cabs (x - s)%C ^ 2).
      { apply lim_min_nearest; [assumption|]. split; [apply Ho; exists i; repeat split; assumption|]. intros t Ht. apply Hmin. auto. }
      assert (Hle : Cabs (x - s)%C ^ 2 <= Cabs (x - u0)%C ^ 2) by (apply pow2_le; try apply Cabs_nonneg; apply Hmin; auto).
      rewrite Es, V0. split; [nra|]. intros Huniq. destruct (Rle_lt_or_eq_dec _ _ Hle) as [H|H]; [nra|]. exfalso.
      apply Hz in U0 as (i0 & Hi0 & Hb0 & Hn0). assert (label_bit k b i0 = true); [|rewrite H0 in Hb0; discriminate]. apply (Huniq i0 u0 Hn0).
      split; [eapply nth_error_In; eassumption|]. intros t Ht. apply Rle_trans with (Cabs (x - s)%C); [|now apply Hmin]. apply pow2_le; try apply Cabs_nonneg. lra.
    + assert (Es : lim_min x zs = Cabs (x - s)%C ^ 2).
      { apply lim_min_nearest; [assumption|]. split; [apply Hz; exists i; rewrite Eb; repeat split; assumption|]. intros t Ht. apply Hmin. auto. }
      assert (Hle : Cabs (x - s)%C ^ 2 <= Cabs (x - u1)%C ^ 2) by (apply pow2_le; try apply Cabs_nonneg; apply Hmin; auto).
      rewrite Es, V1. split; [nra|]. intros Huniq. destruct (Rle_lt_or_eq_dec _ _ Hle) as [H|H]; [nra|]. exfalso.
      apply Ho in U1 as (i0 & Hi0 & Hb0 & Hn0). assert (label_bit k b i0 = false); [|rewrite H0 in Hb0; discriminate]. apply (Huniq i0 u1 Hn0).
      split; [eapply nth_error_In; eassumption|]. intros t Ht. apply Rle_trans with (Cabs (x - s)%C); [|now apply Hmin]. apply pow2_le; try apply Cabs_nonneg. lra.
Qed.
