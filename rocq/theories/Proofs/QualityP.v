From Coq Require Import List ZArith NArith Bool Lia Reals Lra Psatz Arith ZifyBool ZifyNat ZifyN.
From Verif Require Import Common.Py Common.ListX Common.Cplx Common.SumX Model.Gray Model.Constellation Model.Decision Model.Sync Model.Quality
  Spec.Bits Spec.Geometry Spec.Seq Spec.Metrics Proofs.GrayP Proofs.DecisionP Proofs.MapP Proofs.QamP Proofs.PskP Proofs.C01P Proofs.PilotP.
Import ListNotations.
Local Open Scope R_scope.

(** ** decisions *)
Definition dec1 (cs : list C) (x : C) : C * R * nat := match det_symbol_argmin x cs with Ok t => t | Err _ => (C0, 0, 0%nat) end.
Definition dsym cs x := fst (fst (dec1 cs x)).
Definition dix cs x := snd (dec1 cs x).
Lemma dec1_ok cs x : cs <> [] -> det_symbol_argmin x cs = Ok (dec1 cs x) /\ nearest_first cs x (dix cs x) (dsym cs x) /\ snd (fst (dec1 cs x)) = Cabs (x - dsym cs x)%C.
Proof.
  intros H. unfold dix, dsym, dec1. destruct (det_symbol_argmin_spec x cs H) as (s & d & i & E & H1 & H2 & H3 & H4). rewrite E.
  cbn [fst snd]. split; [reflexivity|]. split; [|assumption]. repeat split; assumption.
Qed.
Lemma make_decision_ok cs row : cs <> [] -> make_decision row cs = Ok (map (dec1 cs) row).
Proof. intros H. unfold make_decision. apply mapM_ok. intros x _. now apply dec1_ok. Qed.
Lemma signal_make_decision_ok mp sig : coded_symbols mp <> [] ->
  signal_make_decision mp sig = Ok (map (map (fun x => (fst (dec1 (coded_symbols mp) x), uint16 (dix (coded_symbols mp) x)))) sig).
Proof.
  intros H. unfold signal_make_decision. apply mapM_ok. intros row _. rewrite make_decision_ok by assumption. cbn [bind]. now rewrite map_map.
Qed.
Lemma signal_decide_ok mp sig : coded_symbols mp <> [] -> signal_decide mp sig = Ok (map (map (dsym (coded_symbols mp))) sig).
Proof.
  intros H. unfold signal_decide. rewrite signal_make_decision_ok by assumption. cbn [bind]. f_equal. rewrite map_map. apply map_ext. intros row. now rewrite map_map.
Qed.
Lemma dsym_in cs x : cs <> [] -> In (dsym cs x) cs.
Proof. intros H. destruct (dec1_ok cs x H) as (_ & (H1 & _) & _). eapply nth_error_In; eassumption. Qed.
Lemma dix_lt cs x : cs <> [] -> (dix cs x < length cs)%nat.
Proof. intros H. destruct (dec1_ok cs x H) as (_ & (H1 & _) & _). eapply nth_error_Some_lt; eassumption. Qed.
Lemma dsym_point cs s : In s cs -> dsym cs s = s.
Proof.
  intros Hin. assert (Hne : cs <> []) by (intros ->; destruct Hin). destruct (dec1_ok cs s Hne) as (_ & (H1 & H2 & _) & _).
  apply In_nth_error in Hin as (j & Hj). specialize (H2 j s Hj). rewrite Csub_diag in H2.
  assert (E : Cabs C0 = 0) by (apply Cabs_0; reflexivity). rewrite E in H2. pose proof (Cabs_nonneg (s - dsym cs s)%C).
  assert (E0 : Cabs (s - dsym cs s)%C = 0) by lra. apply Cabs_0, Csub_eq0 in E0. now symmetry.
Qed.
Lemma dsym_dix cs x t : cs <> [] -> NoDup cs -> (dix cs x = dix cs t <-> dsym cs x = dsym cs t).
Proof.
  intros H Hnd. destruct (dec1_ok cs x H) as (_ & (H1 & _) & _). destruct (dec1_ok cs t H) as (_ & (H2 & _) & _). split; intros E.
  - rewrite E in H1. congruence.
  - rewrite E in H1. eapply NoDup_nth_error_inj; eassumption.
Qed.

(** C20 *)
Lemma c20 alphabet e : alphabet <> [] -> exists out, make_decision e alphabet = Ok out /\ length out = length e /\
  forall j x, nth_error e j = Some x -> exists s i, nth_error out j = Some (s, Cabs (x - s)%C, i) /\ nearest_first alphabet x i s /\ (In x alphabet -> s = x).
Proof.
  intros H. exists (map (dec1 alphabet) e). split; [now apply make_decision_ok|]. split; [apply map_length|]. intros j x Hx.
  destruct (dec1_ok alphabet x H) as (_ & H1 & H2). exists (dsym alphabet x), (dix alphabet x). split; [|split; [assumption|intros Hin; now apply dsym_point]].
  rewrite nth_error_map, Hx. cbn. rewrite <- H2. unfold dsym, dix. now destruct (dec1 alphabet x) as [[? ?] ?].
Qed.

(** ** library mappings *)
Lemma lib_facts k mp : (1 <= k)%nat -> lib_mapping k mp ->
  NoDup (coded_symbols mp) /\ length (coded_symbols mp) = (2 ^ k)%nat /\ encoding mp = encoding_table k (2 ^ k) /\ coded_symbols mp <> [].
Proof.
  intros Hk [E|E].
  - destruct (qam_mapping_ok k Hk) as (mp' & E' & Hok). assert (mp' = mp) by congruence. subst mp'.
    destruct Hok as (_ & Hl & _ & _ & He & _). repeat split; try assumption; [now apply (qam_NoDup k)|].
    intros H. rewrite H in Hl. cbn in Hl. assert (2 ^ k <> 0)%nat by (apply Nat.pow_nonzero; lia). lia.
  - destruct (psk_mapping_ok k Hk) as (mp' & E' & Hok). assert (mp' = mp) by congruence. subst mp'.
    destruct Hok as (_ & Hl & _ & _ & He & _). repeat split; try assumption; [now apply (psk_coded_NoDup k)|].
    intros H. rewrite H in Hl. cbn in Hl. assert (2 ^ k <> 0)%nat by (apply Nat.pow_nonzero; lia). lia.
Qed.

Lemma demodulate_any mp k sig : (1 <= k <= 16)%nat -> lib_mapping k mp ->
  demodulate mp sig = Ok (map (fun row => concat (map (fun x => encode_row k (dix (coded_symbols mp) x)) row)) sig).
Proof.
  intros Hk Hm. destruct (lib_facts k mp ltac:(lia) Hm) as (Hnd & Hl & He & Hne).
  unfold demodulate. rewrite signal_make_decision_ok by assumption. cbn [bind]. rewrite PilotP.mapM_map. apply mapM_ok. intros row _.
  assert (Hx : forall x, (dix (coded_symbols mp) x < 2 ^ k)%nat) by (intros x; rewrite <- Hl; now apply dix_lt).
  assert (Hu : forall x, uint16 (dix (coded_symbols mp) x) = dix (coded_symbols mp) x).
  { intros x. apply uint16_small. eapply Nat.lt_le_trans; [apply Hx|]. apply Nat.pow_le_mono_r; lia. }
  rewrite He, map_map. cbn [snd]. rewrite demodulate_idx_ok.
  - f_equal. rewrite map_map. f_equal. apply map_ext. intros x. now rewrite Hu.
  - intros i Hi. apply in_map_iff in Hi as (x & <- & _). rewrite Hu. apply Hx.
Qed.

Lemma c20_signal k mp sig : (1 <= k <= 16)%nat -> lib_mapping k mp -> exists out, signal_make_decision mp sig = Ok out /\
  Forall2 (Forall2 (fun x t => nearest_first (coded_symbols mp) x (snd t) (fst (fst t)) /\ snd (fst t) = Cabs (x - fst (fst t))%C)) sig out.
Proof.
  intros Hk Hm. destruct (lib_facts k mp ltac:(lia) Hm) as (Hnd & Hl & He & Hne). eexists. split; [apply signal_make_decision_ok; assumption|].
  induction sig as [|row sig IH]; cbn [map]; constructor; [|exact IH]. clear IH. induction row as [|x row IH]; cbn [map]; constructor; [|exact IH].
  cbn [fst snd]. destruct (dec1_ok (coded_symbols mp) x Hne) as (_ & H1 & H2). rewrite uint16_small; [split; assumption|].
  apply Nat.lt_le_trans with (2 ^ k)%nat; [rewrite <- Hl; now apply dix_lt|]. apply Nat.pow_le_mono_r; lia.
Qed.

(** ** counting *)
Definition ham (a b : list bool) : nat := length (filter (fun p => xorb (fst p) (snd p)) (combine a b)).
Lemma combine_app {A B} (a1 a2 : list A) (b1 b2 : list B) : length a1 = length b1 -> combine (a1 ++ a2) (b1 ++ b2) = combine a1 b1 ++ combine a2 b2.
Proof. revert b1. induction a1 as [|x a1 IH]; intros [|y b1] H; cbn in *; try discriminate; [reflexivity|]. f_equal. apply IH. congruence. Qed.
Lemma ham_app a1 a2 b1 b2 : length a1 = length b1 -> ham (a1 ++ a2) (b1 ++ b2) = (ham a1 b1 + ham a2 b2)%nat.
Proof. intros H. unfold ham. now rewrite combine_app, filter_app, app_length by assumption. Qed.
Lemma filter_len {A} (f : A -> bool) l : (length (filter f l) <= length l)%nat.
Proof. induction l as [|x l IH]; cbn; [lia|]. destruct (f x); cbn; lia. Qed.
Lemma ham_le a b : (ham a b <= length a)%nat.
Proof. unfold ham. etransitivity; [apply filter_len|]. rewrite combine_length. lia. Qed.
Lemma ham_same a : ham a a = 0%nat.
Proof. induction a as [|x a IH]; [reflexivity|]. unfold ham in *. cbn [combine filter fst snd]. rewrite xorb_nilpotent. exact IH. Qed.
Lemma ham_0 a b : length a = length b -> ham a b = 0%nat -> a = b.
Proof.
  revert b. induction a as [|x a IH]; intros [|y b] Hl H; try discriminate; [reflexivity|]. unfold ham in H. cbn [combine filter fst snd] in H.
  destruct (xorb x y) eqn:E; [discriminate|]. assert (x = y) by (destruct x, y; [reflexivity|discriminate|discriminate|reflexivity]). subst. f_equal. apply IH; [cbn in Hl; congruence|exact H].
Qed.
Lemma encode_row_inj k i j : (i < 2 ^ k)%nat -> (j < 2 ^ k)%nat -> encode_row k i = encode_row k j -> i = j.
Proof.
  intros Hi Hj E. apply Nat2N.inj.
  rewrite <- (encoding_value k (2 ^ k) i), <- (encoding_value k (2 ^ k) j) by (try assumption; now apply encoding_table_nth). now rewrite E.
Qed.

Section Rates.
Variables (k : nat) (mp : mapping).
Hypotheses (Hk : (1 <= k <= 16)%nat) (Hm : lib_mapping k mp).
Let cs := coded_symbols mp.
Let bits row := concat (map (fun x => encode_row k (dix cs x)) row).

Lemma bits_length row : length (bits row) = (length row * k)%nat.
Proof. unfold bits. induction row as [|x row IH]; [reflexivity|]. cbn [map concat]. rewrite app_length, encode_row_length, IH. cbn [length]. lia. Qed.

Lemma bit_errors t r : length t = length r -> Forall (fun s => In s cs) t ->
  let e := n_errors (map (dsym cs) r) t in let b := ham (bits t) (bits r) in
  (e <= b <= k * e)%nat /\ (e = 0%nat <-> map (dsym cs) r = t).
Proof.
  destruct (lib_facts k mp ltac:(lia) Hm) as (Hnd & Hl & He & Hne). fold cs in Hnd, Hl, Hne.
  revert r. induction t as [|s t IH]; intros [|x r] Hlen HF; try discriminate; cbn zeta.
  - split; [cbn; lia|]. split; reflexivity.
  - inversion HF; subst. destruct (IH r) as [I1 I2]; [cbn in Hlen; congruence|assumption|]. cbn zeta in I1, I2.
    unfold bits in *. cbn [map concat]. rewrite ham_app by (now rewrite !encode_row_length).
    unfold n_errors in *. cbn [combine filter fst snd].
    assert (Hs : dsym cs s = s) by now apply dsym_point.
    destruct (Ceq_dec (dsym cs x) s) as [E|E].
    + assert (Ei : dix cs s = dix cs x) by (apply dsym_dix; [assumption|assumption|congruence]). rewrite Ei, ham_same. split; [lia|].
      rewrite I2. split; [intros ->; now rewrite E|intros H; congruence].
    + assert (Hn : dix cs s <> dix cs x) by (intros Ei; apply E; apply dsym_dix in Ei; [congruence|assumption|assumption]).
      assert (H1h : (1 <= ham (encode_row k (dix cs s)) (encode_row k (dix cs x)))%nat).
      { destruct (ham (encode_row k (dix cs s)) (encode_row k (dix cs x))) as [|h] eqn:Eh; [|lia]. exfalso. apply Hn.
        apply ham_0 in Eh; [|now rewrite !encode_row_length]. apply encode_row_inj in Eh; [assumption| |]; rewrite <- Hl; now apply dix_lt. }
      pose proof (ham_le (encode_row k (dix cs s)) (encode_row k (dix cs x))) as H2h. rewrite encode_row_length in H2h.
      cbn [length]. split; [split; [lia|rewrite Nat.mul_succ_r; lia]|]. split; [discriminate|intros H; congruence].
Qed.

Lemma count_diff_ok a b : length a = length b -> count_diff a b = Ok (n_errors a b).
Proof.
  intros H. unfold count_diff, n_errors. rewrite H, Nat.eqb_refl. cbn [negb]. f_equal. f_equal. apply filter_ext. intros [x y]. cbn [fst snd].
  destruct (Ceq_dec (x - y)%C C0) as [E|E], (Ceq_dec x y) as [E'|E']; try reflexivity.
  - exfalso. apply E'. now apply Csub_eq0.
  - exfalso. apply E. subst. apply Csub_diag.
Qed.
Lemma count_xor_ok a b : length a = length b -> count_xor a b = Ok (ham a b).
Proof. intros H. unfold count_xor, ham. now rewrite H, Nat.eqb_refl. Qed.
Lemma rowwise_ok {A B D} (f : A -> B -> result D) (g : A -> B -> D) a b : length a = length b ->
  (forall i x y, nth_error a i = Some x -> nth_error b i = Some y -> f x y = Ok (g x y)) -> rowwise f a b = Ok (map (fun p => g (fst p) (snd p)) (combine a b)).
Proof.
  intros Hl H. unfold rowwise. rewrite Hl, Nat.eqb_refl. cbn [negb]. apply mapM_ok. intros [x y] Hin. cbn [fst snd].
  apply In_nth_error in Hin as (i & Hi). apply H with i.
  - clear H. revert b Hl i Hi. induction a as [|u a IH]; intros [|w b] Hl [|i] Hi; cbn in *; try discriminate; [congruence|eapply IH; eauto; congruence].
  - clear H. revert b Hl i Hi. induction a as [|u a IH]; intros [|w b] Hl [|i] Hi; cbn in *; try discriminate; [congruence|eapply IH; eauto; congruence].
Qed.

Lemma row_len_map {A B} (f : list A -> list B) rows n m : rows <> [] -> rect rows n -> (forall r, length r = n -> length (f r) = m) -> row_len (map f rows) = m.
Proof. intros Hne HR Hf. destruct rows as [|r rows]; [congruence|]. inversion HR; subst. cbn. apply Hf. reflexivity. Qed.

Lemma rect_nth {A} (rows : list (list A)) n i r : rect rows n -> nth_error rows i = Some r -> length r = n.
Proof. intros H E. unfold rect in H. rewrite Forall_forall in H. apply H. eapply nth_error_In; eassumption. Qed.

Lemma rates symbols sig synced tx rx N : signal_sync_and_adjust symbols sig synced = Ok (tx, rx) ->
  (0 < N)%nat -> rect tx N -> rect rx N -> length tx = length rx -> over cs tx ->
  exists ser ber, cal_ser mp symbols sig synced = Ok (map Some ser) /\ cal_ber mp symbols sig synced = Ok (map Some ber) /\
    length ser = length rx /\ length ber = length rx /\
    forall m t r, nth_error tx m = Some t -> nth_error rx m = Some r ->
      exists s b dec, nth_error ser m = Some s /\ nth_error ber m = Some b /\ Forall2 (nearest cs) r dec /\
        INR N * s = INR (n_errors dec t) /\ (0 <= s <= 1) /\ (0 <= b <= 1) /\ (s / INR k <= b <= s) /\
        (s = 0 <-> dec = t) /\ (b = 0 <-> dec = t).
Proof.
  intros Hsync HN Ht Hr Hlen Hover. destruct (lib_facts k mp ltac:(lia) Hm) as (Hnd & Hl & He & Hne). fold cs in Hnd, Hl, Hne.
  set (es := map (fun p => n_errors (map (dsym cs) (snd p)) (fst p)) (combine tx rx)).
  set (bs := map (fun p => ham (bits (fst p)) (bits (snd p))) (combine tx rx)).
  assert (HkR : 0 < INR k) by (apply lt_0_INR; lia). assert (HNR : 0 < INR N) by (apply lt_0_INR; lia).
  exists (map (fun e => INR e / INR N) es), (map (fun b => INR b / INR (N * k)) bs).
  assert (Ees : rowwise count_diff (map (map (dsym cs)) rx) tx = Ok es).
  { rewrite (rowwise_ok count_diff n_errors).
    - f_equal. unfold es. clear - Hlen. revert rx Hlen. induction tx as [|t tx IH]; intros [|r rx] Hlen; cbn in *; try discriminate; [reflexivity|].
      f_equal. apply IH. congruence.
    - now rewrite map_length.
    - intros i x y Hx Hy. apply count_diff_ok. rewrite nth_error_map in Hx. destruct (nth_error rx i) as [r|] eqn:Er; [|discriminate].
      cbn in Hx. injection Hx as <-. rewrite map_length. now rewrite (rect_nth _ _ _ _ Hr Er), (rect_nth _ _ _ _ Ht Hy). }
  assert (Ebs : rowwise count_xor (map bits tx) (map bits rx) = Ok bs).
  { rewrite (rowwise_ok count_xor ham).
    - f_equal. unfold bs. clear - Hlen. revert rx Hlen. induction tx as [|t tx IH]; intros [|r rx] Hlen; cbn in *; try discriminate; [reflexivity|].
      f_equal. apply IH. congruence.
    - now rewrite !map_length.
    - intros i x y Hx Hy. apply count_xor_ok. rewrite nth_error_map in Hx, Hy.
      destruct (nth_error tx i) as [t|] eqn:Et; [|discriminate]. destruct (nth_error rx i) as [r|] eqn:Er; [|discriminate].
      cbn in Hx, Hy. injection Hx as <-. injection Hy as <-. rewrite !bits_length. now rewrite (rect_nth _ _ _ _ Hr Er), (rect_nth _ _ _ _ Ht Et). }
  assert (Les : length es = length rx) by (unfold es; rewrite map_length, combine_length; lia).
  assert (Lbs : length bs = length rx) by (unfold bs; rewrite map_length, combine_length; lia).
  split.
  { unfold cal_ser. rewrite Hsync. cbn [bind fst snd]. rewrite signal_decide_ok by assumption. cbn [bind]. fold cs. rewrite Ees. cbn [bind]. f_equal.
    rewrite map_map. apply map_ext_in. intros e Hin. assert (rx <> []) by (intros ->; destruct es; [destruct Hin|discriminate]).
    rewrite (row_len_map _ _ N N) by (try assumption; intros; now rewrite map_length). unfold ratio. destruct (Nat.eqb_spec N 0); [lia|reflexivity]. }
  split.
  { unfold cal_ber. rewrite Hsync. cbn [bind fst snd]. rewrite !(demodulate_any mp k) by assumption. cbn [bind]. fold cs.
    change (fun row => concat (map (fun x => encode_row k (dix cs x)) row)) with bits. rewrite Ebs. cbn [bind]. f_equal.
    rewrite map_map. apply map_ext_in. intros e Hin. assert (rx <> []) by (intros ->; destruct bs; [destruct Hin|discriminate]).
    rewrite (row_len_map _ _ N (N * k)) by (try assumption; intros r <-; apply bits_length). unfold ratio. destruct (Nat.eqb_spec (N * k) 0); [nia|reflexivity]. }
  rewrite !map_length. split; [assumption|]. split; [assumption|]. intros m t r Et Er.
  assert (Hlt : length t = length r) by (now rewrite (rect_nth _ _ _ _ Hr Er), (rect_nth _ _ _ _ Ht Et)).
  assert (HtN : length t = N) by exact (rect_nth _ _ _ _ Ht Et).
  assert (Hov : Forall (fun s => In s cs) t) by (unfold over in Hover; rewrite Forall_forall in Hover; apply Hover; eapply nth_error_In; eassumption).
  destruct (bit_errors t r Hlt Hov) as [B1 B2]. set (e := n_errors (map (dsym cs) r) t) in *. set (b := ham (bits t) (bits r)) in *. cbn zeta in B1, B2.
  assert (Ec : nth_error (combine tx rx) m = Some (t, r)).
  { clear - Et Er. revert rx m Et Er. induction tx as [|u tx IH]; intros [|w rx] [|m] Et Er; cbn in *; try discriminate; [congruence|now apply IH]. }
  exists (INR e / INR N), (INR b / INR (N * k)), (map (dsym cs) r).
  split; [unfold es; rewrite !nth_error_map, Ec; reflexivity|]. split; [unfold bs; rewrite !nth_error_map, Ec; reflexivity|].
  split.
  { clear - Hne. induction r as [|x r IH]; cbn [map]; constructor; [|assumption]. destruct (dec1_ok cs x Hne) as (_ & (H1 & H2 & _) & _).
    split; [eapply nth_error_In; eassumption|]. intros t Ht. apply In_nth_error in Ht as (j & Hj). eauto. }
  assert (HeN : (e <= N)%nat). { unfold e, n_errors. etransitivity; [apply filter_len|]. rewrite combine_length, map_length. lia. }
  rewrite mult_INR. assert (HeR : 0 <= INR e <= INR N) by (split; [apply pos_INR|now apply le_INR]).
  assert (HbR : INR e <= INR b <= INR k * INR e) by (split; [|rewrite <- mult_INR]; apply le_INR; lia).
  assert (S1 : INR N * (INR e / INR N) = INR e) by (field; lra).
  set (s := INR e / INR N) in *. set (bb := INR b / (INR N * INR k)) in *.
  assert (S2 : INR N * INR k * bb = INR b) by (unfold bb; field; lra).
  assert (Hsr : 0 <= s <= 1) by (split; nra).
  assert (HNk : 0 < INR N * INR k) by nra.
  assert (Hbs : bb <= s).
  { apply Rmult_le_reg_l with (INR N * INR k); [assumption|]. rewrite S2. replace (INR N * INR k * s) with (INR k * (INR N * s)) by ring. rewrite S1. lra. }
  assert (Hbs2 : s / INR k <= bb).
  { apply Rmult_le_reg_l with (INR N * INR k); [assumption|]. rewrite S2. replace (INR N * INR k * (s / INR k)) with (INR N * s) by (field; lra). lra. }
  assert (Hb0 : 0 <= bb).
  { apply Rmult_le_reg_l with (INR N * INR k); [assumption|]. rewrite S2, Rmult_0_r. apply pos_INR. }
  split; [exact S1|]. split; [assumption|]. split; [lra|]. split; [lra|]. split.
  - rewrite <- B2. split; intros H.
    + apply INR_eq. change (INR 0) with 0. rewrite H in S1. lra.
    + assert (INR e = 0) by (rewrite H; reflexivity). rewrite H0 in S1. nra.
  - rewrite <- B2. split; intros H.
    + assert (INR b = 0) by (rewrite H in S2; lra). apply INR_eq. change (INR 0) with 0. lra.
    + assert (He0 : INR e = 0) by (rewrite H; reflexivity). rewrite He0 in S1. assert (s = 0) by nra. lra.
Qed.

(** C23 *)
Lemma nearest_close d x s t : minimum_distance cs d -> nearest cs x s -> In t cs -> Cabs (x - t)%C < d / 2 -> s = t.
Proof.
  intros [Hd _] [Hin Hn] Ht Hx. specialize (Hn t Ht). apply In_nth_error in Hin as (i & Hi). apply In_nth_error in Ht as (j & Hj).
  destruct (Nat.eq_dec i j) as [E|E]; [subst; congruence|]. exfalso.
  specialize (Hd _ _ _ _ E Hi Hj). pose proof (Cabs_triang (s - x)%C (x - t)%C) as Htr.
  replace (s - x + (x - t))%C with (s - t)%C in Htr by cring.
  assert (Es : Cabs (s - x)%C = Cabs (x - s)%C) by (unfold Cabs; now rewrite Cnorm2_sub_sym). lra.
Qed.
Lemma c23 symbols sig synced tx rx N d : signal_sync_and_adjust symbols sig synced = Ok (tx, rx) ->
  (0 < N)%nat -> rect tx N -> rect rx N -> length tx = length rx -> over cs tx -> minimum_distance cs d ->
  Forall2 (Forall2 (fun x s => Cabs (x - s)%C < d / 2)) rx tx ->
  cal_ser mp symbols sig synced = Ok (repeat (Some 0) (length rx)) /\ cal_ber mp symbols sig synced = Ok (repeat (Some 0) (length rx)).
Proof.
  intros Hs HN Ht Hr Hl Hov Hd HF. destruct (rates symbols sig synced tx rx N Hs HN Ht Hr Hl Hov) as (ser & ber & E1 & E2 & L1 & L2 & H).
  assert (Hall : forall m, (m < length rx)%nat -> nth_error ser m = Some 0 /\ nth_error ber m = Some 0).
  { intros m Hmr. destruct (nth_error_lt_Some rx m Hmr) as (r & Er). destruct (nth_error_lt_Some tx m) as (t & Et); [lia|].
    destruct (H m t r Et Er) as (s & b & dec & Es & Eb & Hdec & _ & _ & _ & _ & Z1 & Z2).
    assert (Hrow : Forall2 (fun x s => Cabs (x - s)%C < d / 2) r t).
    { clear - HF Er Et. revert m Er Et. induction HF as [|u v rx tx Huv HF IH]; intros [|m] Er Et; cbn in *; try discriminate; [|eauto]. injection Er as <-. injection Et as <-. assumption. }
    assert (Hot : Forall (fun s => In s cs) t) by (unfold over in Hov; rewrite Forall_forall in Hov; apply Hov; eapply nth_error_In; eassumption).
    assert (dec = t). { clear - Hdec Hrow Hot Hd. revert t Hrow Hot. induction Hdec as [|x y r dec Hxy HF IH]; intros t Hrow Hot; inversion Hrow; subst; [reflexivity|].
      inversion Hot; subst. f_equal; [eapply nearest_close; eassumption|apply IH; assumption]. }
    rewrite Es, Eb. rewrite (proj2 Z1), (proj2 Z2) by assumption. split; reflexivity. }
  assert (Eser : map Some ser = repeat (Some 0) (length rx)).
  { apply nth_error_ext_lt; [rewrite map_length, repeat_length; lia|]. intros i Hi. rewrite map_length in Hi. rewrite nth_error_map, (proj1 (Hall i ltac:(lia))), nth_error_repeat_lt by lia. reflexivity. }
  assert (Eber : map Some ber = repeat (Some 0) (length rx)).
  { apply nth_error_ext_lt; [rewrite map_length, repeat_length; lia|]. intros i Hi. rewrite map_length in Hi. rewrite nth_error_map, (proj2 (Hall i ltac:(lia))), nth_error_repeat_lt by lia. reflexivity. }
  rewrite E1, E2, Eser, Eber. split; reflexivity.
Qed.

End Rates.
